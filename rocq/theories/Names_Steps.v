(* Each thing the compiler does with names does to its scopes what the fold
   over the occurrences does to the table of declarations. *)

From Coq Require Import ZArith List Bool Arith Lia.
From Verif Require Import Names_Model Names_Spec Names_Rep.
Import ListNotations.
Local Open Scope Z_scope.

(* Reports are only added to. *)
Definition ext (st st' : state) : Prop := exists new, st_out st' = st_out st ++ new.

Lemma ext_refl : forall st, ext st st.
Proof. intros. exists []. now rewrite app_nil_r. Qed.
Lemma ext_trans : forall a b c, ext a b -> ext b c -> ext a c.
Proof. intros a b c [x X] [y Y]. exists (x ++ y). rewrite Y, X. now rewrite app_assoc. Qed.
Lemma ext_say : forall e st, ext st (say e st).
Proof. intros. exists [e]. reflexivity. Qed.
Lemma ext_out : forall st st', st_out st' = st_out st -> ext st st'.
Proof. intros. exists []. now rewrite app_nil_r. Qed.

Lemma sfa_out : forall st, st_out (fst (scope_for_add st)) = st_out st.
Proof.
  intros. unfold scope_for_add. destruct (st_cs st) as [|c cs]; [reflexivity|].
  destruct (Nat.eqb (st_cur st) (c_prev c)); reflexivity.
Qed.
Lemma sfa_link : forall st, st_link (fst (scope_for_add st)) = st_link st.
Proof.
  intros. unfold scope_for_add. destruct (st_cs st) as [|c cs]; [reflexivity|].
  destruct (Nat.eqb (st_cur st) (c_prev c)); reflexivity.
Qed.

Lemma new_status_out : forall nat st v n, st_out (fst (new_status nat st v n)) = st_out st.
Proof.
  intros. unfold new_status.
  destruct (if nat then _ else _); try reflexivity.
  pose proof (sfa_out st) as E. destruct (scope_for_add st) as [st1 c]. cbn [fst] in E.
  repeat match goal with |- context [if ?b then _ else _] => destruct b end; exact E.
Qed.

Lemma ext_check : forall nat st v d, ext st (fst (check_redef nat st v d)).
Proof.
  intros. unfold check_redef. pose proof (new_status_out nat st v (d_name d)) as E.
  destruct (new_status nat st v (d_name d)) as [st1 []]; cbn [fst] in E |- *.
  - now apply ext_out.
  - eapply ext_trans; [apply ext_out, E|apply ext_say].
  - eapply ext_trans; [apply ext_out, E|apply ext_say].
  - eapply ext_trans; [apply ext_out, E|apply ext_say].
Qed.

Lemma ext_define : forall st v d, ext st (define st v d).
Proof.
  intros. unfold define. pose proof (sfa_out st) as E.
  destruct (scope_for_add st) as [st1 s]. cbn [fst] in E.
  assert (S1 : ext st (say Failed st1)) by (eapply ext_trans; [apply ext_out, E|apply ext_say]).
  destruct (nth_error (st_heap st1) s); [|exact S1].
  match goal with |- context [match ?t with Some _ => _ | None => _ end] => destruct t end;
    [|exact S1].
  destruct (global_or_file _); [apply ext_out; exact E|].
  destruct (nth_error (st_heap st1) n); [|exact S1].
  destruct (tab_find _ _); [exact S1|apply ext_out; exact E].
Qed.

Lemma ext_bind_e : forall e st, ext st (fst (bind_e st e)).
Proof.
  induction e; intros st; cbn [bind_e].
  - apply ext_refl.
  - destruct (look st n); apply ext_say.
  - specialize (IHe1 st). destruct (bind_e st e1) as [st1 o1]. specialize (IHe2 st1).
    destruct (bind_e st1 e2) as [st2 o2]. eapply ext_trans; [exact IHe1|exact IHe2].
  - specialize (IHe1 st). destruct (bind_e st e1) as [st1 o1]. specialize (IHe2 st1).
    destruct o1; [eapply ext_trans; [exact IHe1|exact IHe2]|exact IHe1].
Qed.

Lemma ext_var : forall nat st v d e, ext st (bind_var nat st v d e).
Proof.
  intros. unfold bind_var. pose proof (ext_bind_e e st) as E1.
  destruct (bind_e st e) as [st1 o]. pose proof (ext_check nat st1 v d) as E2.
  destruct (check_redef nat st1 v d) as [st2 ok]. cbn [fst] in *.
  pose proof (ext_trans _ _ _ E1 E2) as E3.
  destruct ok; [eapply ext_trans; [exact E3|apply ext_define]|exact E3].
Qed.

Lemma ext_const : forall nat st v d e, ext st (bind_const nat st v d e).
Proof.
  intros. unfold bind_const. pose proof (ext_check nat st v d) as E2.
  destruct (check_redef nat st v d) as [st2 ok]. cbn [fst] in *.
  destruct ok; [|exact E2].
  eapply ext_trans; [exact E2|]. eapply ext_trans; [apply ext_define|apply ext_bind_e].
Qed.

Lemma ext_leave : forall st, ext st (leave_lazy st).
Proof.
  intros. unfold leave_lazy. destruct (st_cs st) as [|c outer]; [apply ext_say|].
  destruct (Nat.eqb (st_cur st) (c_prev c)); destruct outer; apply ext_out; reflexivity.
Qed.

Lemma ext_bind_s : forall nat s st, ext st (bind_s nat st s).
Proof.
  induction s; intros st; cbn [bind_s].
  - apply ext_refl.
  - eapply ext_trans; [apply IHs1|apply IHs2].
  - apply ext_bind_e.
  - apply ext_var.
  - apply ext_const.
  - eapply ext_trans; [|apply ext_leave]. eapply ext_trans; [|apply IHs]. now apply ext_out.
  - eapply ext_trans; [|apply IHs2]. eapply ext_trans; [apply ext_bind_e|apply IHs1].
  - eapply ext_trans; [apply ext_bind_e|apply IHs].
  - assert (E0 : ext st (if own then enter_lazy st KLocal else st))
      by (destruct own; now apply ext_out).
    set (st0 := if own then enter_lazy st KLocal else st) in *.
    assert (E : ext st (bind_s nat (fst (bind_e (fst (bind_e (bind_s nat st0 s1) c)) a)) s2)).
    { eapply ext_trans; [exact E0|]. eapply ext_trans; [apply IHs1|].
      eapply ext_trans; [apply ext_bind_e|]. eapply ext_trans; [apply ext_bind_e|apply IHs2]. }
    destruct own; [eapply ext_trans; [exact E|apply ext_leave]|exact E].
  - eapply ext_trans; [|apply IHs2]. eapply ext_trans; [apply ext_bind_e|apply IHs1].
Qed.

Section Steps.
Variable B : nat.

Definition srep (st : state) (D : table) (q : place) : Prop :=
  rep B (st_heap st) D q (st_cur st) (st_cs st).

Definition keep (st st' : state) : Prop :=
  (length (st_heap st) <= length (st_heap st'))%nat /\
  (forall i, (i <= B)%nat -> nth_error (st_heap st') i = nth_error (st_heap st) i) /\
  length (st_cs st') = length (st_cs st).

Lemma keep_refl : forall st, keep st st.
Proof. intros. repeat split; auto. Qed.
Lemma keep_trans : forall a b c, keep a b -> keep b c -> keep a c.
Proof.
  intros a b c [L1 [H1 C1]] [L2 [H2 C2]]. split; [lia|]. split; [|congruence].
  intros i LE. rewrite (H2 _ LE). apply H1, LE.
Qed.

(* From st to st' the occurrences O were read: if they hold an error one was
   reported, otherwise what they ask for was, and P holds of the new table. *)
Definition resP (P : state -> table -> Prop) (st st' : state) (D : table) (L : list (Z * Z))
  (O : list occ) : Prop :=
  if has_err (evs D L O)
  then exists new, st_out st' = st_out st ++ new /\ has_err new = true
  else st_out st' = st_out st ++ evs D L O /\ st_link st' = dL D L O /\
       P st' (dD D O) /\ keep st st'.

Definition res (st st' : state) (D : table) (L : list (Z * Z)) (O : list occ) (q : place) : Prop :=
  resP (fun s T => srep s T q) st st' D L O.

Lemma resP_seq : forall P1 P2 st st1 st2 D L O1 O2,
  resP P1 st st1 D L O1 -> ext st1 st2 ->
  (st_link st1 = dL D L O1 -> P1 st1 (dD D O1) -> keep st st1 ->
   resP P2 st1 st2 (dD D O1) (dL D L O1) O2) ->
  resP P2 st st2 D L (O1 ++ O2).
Proof.
  intros P1 P2 st st1 st2 D L O1 O2 R1 [x X] R2. unfold resP in *. rewrite evs_app, has_err_app.
  destruct (has_err (evs D L O1)) eqn:E1; cbn [orb].
  - destruct R1 as [n1 [N1 N2]]. exists (n1 ++ x). rewrite X, N1, app_assoc. split; [reflexivity|].
    rewrite has_err_app, N2. reflexivity.
  - destruct R1 as [O1E [LE [RE KE]]]. specialize (R2 LE RE KE).
    destruct (has_err (evs (dD D O1) (dL D L O1) O2)) eqn:E2.
    + destruct R2 as [n2 [N1 N2]]. exists (evs D L O1 ++ n2).
      rewrite N1, O1E, app_assoc. split; [reflexivity|]. rewrite has_err_app, N2, orb_true_r.
      reflexivity.
    + destruct R2 as [A1 [A2 [A3 A4]]]. rewrite dD_app, dL_app.
      split; [rewrite A1, O1E, app_assoc; reflexivity|]. split; [exact A2|].
      split; [exact A3|]. eapply keep_trans; eassumption.
Qed.

Lemma res_seq : forall st st1 st2 D L O1 O2 q,
  res st st1 D L O1 q -> ext st1 st2 ->
  (st_link st1 = dL D L O1 -> srep st1 (dD D O1) q -> keep st st1 ->
   res st1 st2 (dD D O1) (dL D L O1) O2 q) ->
  res st st2 D L (O1 ++ O2) q.
Proof. intros st st1 st2 D L O1 O2 q. apply resP_seq. Qed.

Lemma res_nil : forall st D L q, st_link st = L -> srep st D q -> res st st D L [] q.
Proof.
  intros. unfold res, resP. cbn. rewrite app_nil_r. repeat (split; [assumption || reflexivity|]).
  apply keep_refl.
Qed.

Lemma look_rep : forall st D q n, srep st D q ->
  match vis D q n with
  | None => look st n = LNone
  | Some (_, d) => exists s, look st n = LFound d s /\ (s <= st_cur st)%nat
  end.
Proof.
  intros st D q n R. unfold look. apply (rep_find _ _ _ _ _ _ R).
  exact (proj1 (rep_lt _ _ _ _ _ _ R)).
Qed.

Lemma srep_say : forall e st D q, srep st D q -> srep (say e st) D q.
Proof. intros. exact H. Qed.

(* Expressions. *)
Lemma occ_e_D : forall e q D, dD D (occ_e q e) = D.
Proof.
  induction e; intros q D; cbn [occ_e]; [reflexivity|reflexivity| |];
    rewrite dD_app, IHe1; apply IHe2.
Qed.
Lemma occ_e_L : forall e q D L, dL D L (occ_e q e) = L.
Proof.
  induction e; intros q D L; cbn [occ_e]; [reflexivity|reflexivity| |];
    rewrite dL_app, IHe1; apply IHe2.
Qed.

Lemma bind_e_res : forall e st D L q, st_link st = L -> srep st D q ->
  res st (fst (bind_e st e)) D L (occ_e q e) q /\
  snd (bind_e st e) = negb (has_err (evs D L (occ_e q e))).
Proof.
  induction e; intros st D L q HL R; cbn [bind_e occ_e].
  - split; [apply res_nil; assumption|reflexivity].
  - pose proof (look_rep st D q n R) as LK. unfold res, resP. cbn [evs ev1].
    destruct (vis D q n) as [[q' d]|].
    + destruct LK as [s [-> LE]]. cbn. rewrite HL. repeat split; auto.
    + rewrite LK. cbn. split; [|reflexivity]. eexists. split; [reflexivity|reflexivity].
  - destruct (IHe1 st D L q HL R) as [R1 K1]. destruct (bind_e st e1) as [st1 o1] eqn:E1.
    cbn [fst snd] in *.
    pose proof (ext_bind_e e2 st1) as X2.
    assert (K2 : o1 = true -> snd (bind_e st1 e2) = negb (has_err (evs D L (occ_e q e2)))).
    { intros ->. unfold res, resP in R1. destruct (has_err (evs D L (occ_e q e1))); [discriminate|].
      destruct R1 as [_ [LL [RR _]]]. rewrite occ_e_D in RR. rewrite occ_e_L in LL.
      exact (proj2 (IHe2 st1 D L q LL RR)). }
    assert (R2 : res st (fst (bind_e st1 e2)) D L (occ_e q e1 ++ occ_e q e2) q).
    { eapply res_seq; [exact R1|exact X2|]. intros LL RR _.
      exact (proj1 (IHe2 st1 _ _ q LL RR)). }
    destruct (bind_e st1 e2) as [st2 o2] eqn:E2. cbn [fst snd] in *. split; [exact R2|].
    rewrite evs_app, has_err_app, occ_e_D, occ_e_L.
    destruct (has_err (evs D L (occ_e q e1))); cbn [negb] in K1; subst o1; [reflexivity|].
    cbn [andb orb]. apply K2. reflexivity.
  - destruct (IHe1 st D L q HL R) as [R1 K1]. destruct (bind_e st e1) as [st1 o1] eqn:E1.
    cbn [fst snd] in *. destruct o1.
    + pose proof (ext_bind_e e2 st1) as X2.
      assert (K2 : snd (bind_e st1 e2) = negb (has_err (evs D L (occ_e q e2)))).
      { unfold res, resP in R1. destruct (has_err (evs D L (occ_e q e1))); [discriminate|].
        destruct R1 as [_ [LL [RR _]]]. rewrite occ_e_D in RR. rewrite occ_e_L in LL.
        exact (proj2 (IHe2 st1 D L q LL RR)). }
      assert (R2 : res st (fst (bind_e st1 e2)) D L (occ_e q e1 ++ occ_e q e2) q).
      { eapply res_seq; [exact R1|exact X2|]. intros LL RR _.
        exact (proj1 (IHe2 st1 _ _ q LL RR)). }
      split; [exact R2|]. rewrite evs_app, has_err_app, occ_e_D, occ_e_L.
      destruct (has_err (evs D L (occ_e q e1))); [discriminate|exact K2].
    + cbn [fst snd]. unfold res, resP in *. rewrite evs_app, has_err_app.
      destruct (has_err (evs D L (occ_e q e1))); [|discriminate]. cbn [orb negb].
      split; [exact R1|reflexivity].
Qed.

(* Making the scope things are added to. *)
Definition made_at (st : state) (D : table) (q : place) (i : nat) (k : kind) : Prop :=
  exists w q' prev, q = At w :: q' /\
  st_cur st = i /\ scope_for_add st = (st, i) /\ (prev < i)%nat /\ (B < i)%nat /\
  nth_error (st_heap st) i = Some (mkS (Some prev) k (at_ D q)) /\
  forall h' D', nth_error h' i = Some (mkS (Some prev) k (at_ D' q)) ->
    (forall j, (j < i)%nat -> nth_error h' j = nth_error (st_heap st) j) ->
    (length (st_heap st) <= length h')%nat ->
    (forall q1, around q1 q' -> at_ D' q1 = at_ D q1) ->
    rep B h' D' q i (st_cs st).

Lemma sfa_lazy : forall st D w q, srep st D (At w :: q) -> st_cs st <> [] ->
  exists st1 i, scope_for_add st = (st1, i) /\ made_at st1 D (At w :: q) i KLocal /\
    st_out st1 = st_out st /\ st_link st1 = st_link st /\ srep st1 D (At w :: q) /\
    keep st st1 /\
    (forall j, (j <= st_cur st)%nat -> nth_error (st_heap st1) j = nth_error (st_heap st) j) /\
    (forall d, tab_find d (at_ D (At w :: q)) = None -> (st_cur st < i)%nat \/ st_cur st = i).
Proof.
  intros st D w q R NE. pose proof (rep_lt _ _ _ _ _ _ R) as [LT BLT].
  remember (At w :: q) as qq eqn:QQ. unfold srep in R.
  destruct st as [h cur cs L out]. cbn [st_heap st_cur st_cs st_link st_out] in *.
  inversion R; subst; try discriminate; try (contradiction NE; reflexivity);
    match goal with E : At _ :: _ = At _ :: _ |- _ => injection E as -> -> | _ => idtac end.
  - (* to be made *)
    unfold scope_for_add. cbn [st_heap st_cur st_cs st_link st_out c_prev c_kind].
    rewrite Nat.eqb_refl.
    set (h1 := h ++ [mkS (Some cur) KLocal []]).
    assert (N1 : nth_error h1 (length h) = Some (mkS (Some cur) KLocal [])).
    { unfold h1. rewrite nth_error_app2 by lia. rewrite Nat.sub_diag. reflexivity. }
    assert (N2 : forall j, (j < length h)%nat -> nth_error h1 j = nth_error h j).
    { intros j J. unfold h1. apply nth_error_app1. exact J. }
    assert (LL : length h1 = S (length h)) by (unfold h1; rewrite app_length; cbn; lia).
    assert (MR : forall h' D', nth_error h' (length h) = Some (mkS (Some cur) KLocal (at_ D' (At w :: q))) ->
      (forall j, (j < length h)%nat -> nth_error h' j = nth_error h1 j) ->
      (length h1 <= length h')%nat ->
      (forall q1, around q1 q -> at_ D' q1 = at_ D q1) ->
      rep B h' D' (At w :: q) (length h) (mkC cur KLocal pend :: cs0)).
    { intros h' D' E1 E2 E3 E4. apply r_made; try assumption.
      eapply rep_frame; [eassumption| |lia|exact E4].
      intros j J. rewrite E2 by lia. apply N2. lia. }
    eexists; exists (length h). split; [reflexivity|].
    assert (MA : made_at (mkSt h1 (length h) (mkC cur KLocal pend :: cs0) L out) D
                   (At w :: q) (length h) KLocal).
    { exists w, q, cur. cbn [st_heap st_cur st_cs]. split; [reflexivity|]. split; [reflexivity|].
      split.
      { unfold scope_for_add. cbn [st_heap st_cur st_cs c_prev].
        replace (Nat.eqb (length h) cur) with false; [reflexivity|].
        symmetry. apply Nat.eqb_neq. lia. }
      split; [exact LT|]. split; [exact BLT|]. split; [|exact MR].
      rewrite N1. match goal with E : at_ D _ = [] |- _ => rewrite E end. reflexivity. }
    split; [exact MA|]. split; [reflexivity|]. split; [reflexivity|].
    split.
    { unfold srep. cbn [st_heap st_cur st_cs]. apply MR; auto.
      rewrite N1. match goal with E : at_ D _ = [] |- _ => rewrite E end. reflexivity. }
    split.
    { split; cbn [st_heap]; [lia|]. split; [|reflexivity]. intros i LE. apply N2. lia. }
    split; [intros j J; apply N2; cbn [st_cur] in J; lia|].
    intros. left. exact LT.
  - (* made already *)
    unfold scope_for_add. cbn [st_heap st_cur st_cs st_link st_out c_prev c_kind].
    replace (Nat.eqb cur prev) with false by (symmetry; apply Nat.eqb_neq; lia).
    eexists; exists cur. split; [reflexivity|].
    split.
    { exists w, q, prev. cbn [st_heap st_cur st_cs]. split; [reflexivity|]. split; [reflexivity|].
      split.
      { unfold scope_for_add. cbn [st_heap st_cur st_cs c_prev].
        replace (Nat.eqb cur prev) with false by (symmetry; apply Nat.eqb_neq; lia). reflexivity. }
      split; [assumption|]. split; [assumption|]. split; [assumption|].
      intros h' D' E1 E2 E3 E4. apply r_made; try assumption.
      eapply rep_frame; [eassumption| |lia|exact E4].
      intros j J. apply E2. lia. }
    split; [reflexivity|]. split; [reflexivity|]. split; [exact R|].
    split; [apply keep_refl|]. split; [auto|]. intros. right. reflexivity.
Qed.

Lemma define_made : forall st D L q i k v d, made_at st D q i k -> k = KArg \/ k = KLocal ->
  st_link st = L ->
  tab_find (d_name d) (at_ D q) = None ->
  st_out (define st v d) = st_out st /\ st_link (define st v d) = L /\
  srep (define st v d) ((q, d) :: D) q /\ keep st (define st v d) /\ st_cs (define st v d) = st_cs st.
Proof.
  intros st D L q i k v d (w & q' & prev & -> & CU & SF & PL & BL & N & FR) K HL NF.
  unfold define. rewrite SF, N. cbn [s_kind s_parent s_tab].
  replace (kind_eqb k KFile) with false by (destruct K as [-> | ->]; reflexivity).
  cbn [andb]. unfold kind_of. rewrite N. cbn [s_kind].
  replace (global_or_file k) with false by (destruct K as [-> | ->]; reflexivity).
  cbn [s_tab]. rewrite NF.
  cbn [st_out st_link st_heap st_cur st_cs].
  split; [reflexivity|]. split; [exact HL|]. split; [|split; [|reflexivity]].
  - unfold srep. cbn [st_heap st_cur st_cs]. rewrite CU. apply FR.
    + rewrite nth_upd_same, N. cbn [option_map]. unfold add_tab. cbn [s_parent s_kind s_tab].
      rewrite at_cons.
      destruct (place_dec (At w :: q') (At w :: q')); [reflexivity|congruence].
    + intros j J. apply nth_upd_other. lia.
    + rewrite upd_length. lia.
    + intros q1 A. apply at_deeper. apply around_len in A. cbn [length]. lia.
  - split; cbn [st_heap]; [rewrite upd_length; lia|]. split; [|reflexivity].
    intros j J. apply nth_upd_other. lia.
Qed.

(* A declaration in a block. *)
Lemma check_block : forall st D L w q d v, st_link st = L -> srep st D (At w :: q) ->
  st_cs st <> [] ->
  let r := check_redef false st v d in
  st_link (fst r) = L /\ ext st (fst r) /\
  (if has_err (ev1 D L (ODecl (At w :: q) Plain d))
   then snd r = false /\ exists new, st_out (fst r) = st_out st ++ new /\ has_err new = true
   else snd r = true /\ st_out (fst r) = st_out st ++ ev1 D L (ODecl (At w :: q) Plain d) /\
        srep (fst r) D (At w :: q) /\ keep st (fst r) /\ st_cs (fst r) <> []).
Proof.
  intros st D L w q d v HL R NE r.
  destruct (sfa_lazy st D w q R NE) as (st1 & i & SF & MA & SO & SL & SR & SK & SJ & _).
  assert (CS : st_cs st1 <> []).
  { unfold scope_for_add in SF. destruct (st_cs st) as [|c cs] eqn:EC; [congruence|].
    destruct (Nat.eqb (st_cur st) (c_prev c)); injection SF as <- _; cbn [st_cs];
      [discriminate|congruence]. }
  assert (KC : kind_of (st_heap st1) i = KLocal).
  { destruct MA as (w1 & q1 & p1 & _ & _ & _ & _ & _ & N & _). unfold kind_of. rewrite N. reflexivity. }
  pose proof (ext_check false st v d) as EX. fold r in EX.
  pose proof (look_rep st D (At w :: q) (d_name d) R) as LK.
  subst r. unfold check_redef, new_status in *.
  change (vis D (At w :: q) (d_name d)) with
      (match tab_find (d_name d) (at_ D (At w :: q)) with
       | Some x => Some (At w :: q, x) | None => vis D q (d_name d) end) in LK.
  cbn [ev1 tl] in *.
  destruct (tab_find (d_name d) (at_ D (At w :: q))) as [x|] eqn:TF.
  - destruct LK as [s [LK LE]]. rewrite LK in *. rewrite SF in *. rewrite KC in *.
    cbn [global_or_file kind_eqb andb] in *. rewrite andb_false_r in *.
    assert (SI : s = i).
    { (* found at the place itself: in the scope made for it *)
      unfold srep in R. inversion R; subst;
        match goal with
        | E : at_ D _ = [] |- _ => rewrite E in TF; discriminate TF
        | _ => idtac
        end.
      - exfalso. apply NE. auto.
      - unfold scope_for_add in SF.
        match goal with E : _ = st_cs st |- _ => rewrite <- E in SF end.
        cbn [c_prev] in SF.
        replace (Nat.eqb (st_cur st) prev) with false in SF by (symmetry; apply Nat.eqb_neq; lia).
        injection SF as _ <-.
        unfold look in LK. destruct (length (st_heap st)) as [|fu] eqn:LL; [discriminate LK|].
        cbn [find_sym] in LK.
        match goal with E : nth_error (st_heap st) (st_cur st) = _ |- _ => rewrite E in LK end.
        cbn [s_tab] in LK. rewrite TF in LK. congruence. }
    subst s. rewrite Nat.eqb_refl in *. cbn [fst snd] in *.
    split; [cbn; congruence|]. split; [exact EX|]. cbn. split; [reflexivity|].
    exists [Redef (d_pos d)]. rewrite SO. split; reflexivity.
  - destruct (vis D q (d_name d)) as [[q' x]|].
    + destruct LK as [s [LK LE]]. rewrite LK in *. rewrite SF in *. rewrite KC in *.
      cbn [global_or_file kind_eqb andb] in *. rewrite andb_false_r in *.
      assert (SI : s <> i).
      { intros ->. unfold srep in R. inversion R; subst.
        - auto.
        - auto.
        - unfold scope_for_add in SF.
          match goal with E : _ = st_cs st |- _ => rewrite <- E in SF end.
          cbn [c_prev] in SF. rewrite Nat.eqb_refl in SF. injection SF as _ <-.
          pose proof (rep_lt _ _ _ _ _ _ R). lia.
        - unfold look in LK. destruct (length (st_heap st)) as [|fu] eqn:LL; [discriminate LK|].
          cbn [find_sym] in LK.
          match goal with E : nth_error (st_heap st) (st_cur st) = _ |- _ => rewrite E in LK end.
          cbn [s_tab s_parent] in LK. rewrite TF in LK.
          unfold scope_for_add in SF.
          match goal with E : _ = st_cs st |- _ => rewrite <- E in SF end.
          cbn [c_prev] in SF.
          replace (Nat.eqb (st_cur st) prev) with false in SF by (symmetry; apply Nat.eqb_neq; lia).
          injection SF as _ <-.
          assert (PL : (prev < fu)%nat).
          { pose proof (rep_lt _ _ _ _ _ _ R). lia. }
          match goal with RR : rep B (st_heap st) D q prev _ |- _ =>
            pose proof (rep_find _ _ _ _ _ _ RR (d_name d) fu PL) as F2 end.
          destruct (vis D q (d_name d)) as [[q2 x2]|].
          + destruct F2 as [s2 [F2 F3]]. rewrite F2 in LK.
            assert (s2 = st_cur st) by congruence. lia.
          + rewrite F2 in LK. discriminate LK. }
      apply Nat.eqb_neq in SI. rewrite SI in *. cbn [fst snd] in *.
      split; [cbn; congruence|]. split; [exact EX|]. cbn [has_err existsb is_error orb].
      split; [reflexivity|]. split; [cbn; rewrite SO; reflexivity|].
      split; [exact SR|]. split; [exact SK|exact CS].
    + rewrite LK in *. cbn [fst snd has_err existsb is_error] in *.
      split; [exact HL|]. split; [exact EX|]. split; [reflexivity|].
      split; [now rewrite app_nil_r|]. split; [exact R|]. split; [apply keep_refl|exact NE].
Qed.
End Steps.
