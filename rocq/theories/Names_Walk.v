(* The walk over a whole program follows the fold over its occurrences. *)

From Coq Require Import ZArith List Bool Arith Lia.
From Verif Require Import Names_Model Names_Spec Names_Rep Names_Steps.
Import ListNotations.
Local Open Scope Z_scope.

Section Walk.
Variable B : nat.

Lemma define_sfa : forall st st1 i v d, scope_for_add st = (st1, i) ->
  scope_for_add st1 = (st1, i) -> define st v d = define st1 v d.
Proof. intros st st1 i v d E1 E2. unfold define. rewrite E1, E2. reflexivity. Qed.

Lemma decl_block : forall st D L w q d v, st_link st = L -> srep B st D (At w :: q) ->
  st_cs st <> [] ->
  res B st (let '(st2, ok) := check_redef false st v d in if ok then define st2 v d else st2)
    D L [ODecl (At w :: q) Plain d] (At w :: q).
Proof.
  intros st D L w q d v HL R NE.
  pose proof (check_block B st D L w q d v HL R NE) as [LL [EX CK]].
  destruct (check_redef false st v d) as [st2 ok]. cbn [fst snd] in *.
  unfold res, resP. cbn [evs]. rewrite app_nil_r. cbn [dL dL1 dD dD1].
  destruct (has_err (ev1 D L (ODecl (At w :: q) Plain d))) eqn:HE.
  - destruct CK as [-> N]. exact N.
  - destruct CK as [-> [OU [SR [KP CS]]]].
    destruct (sfa_lazy B st2 D w q SR CS) as (st3 & i & SF & MA & SO & SL & _ & SK & _ & _).
    assert (NF : tab_find (d_name d) (at_ D (At w :: q)) = None).
    { cbn [ev1] in HE. destruct (tab_find (d_name d) (at_ D (At w :: q))); [discriminate|reflexivity]. }
    assert (SF3 : scope_for_add st3 = (st3, i)).
    { destruct MA as (? & ? & ? & ? & ? & ? & ?). assumption. }
    rewrite (define_sfa _ _ _ v d SF SF3).
    destruct (define_made B st3 D L (At w :: q) i KLocal v d MA (or_intror eq_refl))
      as [A1 [A2 [A3 [A4 A5]]]]; [congruence|exact NF|].
    split; [rewrite A1, SO, OU; reflexivity|]. split; [exact A2|]. split; [exact A3|].
    eapply keep_trans; [exact KP|]. eapply keep_trans; [exact SK|exact A4].
Qed.

Lemma bind_e_same : forall e st, let st' := fst (bind_e st e) in
  st_heap st' = st_heap st /\ st_cur st' = st_cur st /\ st_cs st' = st_cs st /\
  st_link st' = st_link st.
Proof.
  induction e; intros st; cbn [bind_e].
  - repeat split.
  - destruct (look st n); repeat split.
  - specialize (IHe1 st). destruct (bind_e st e1) as [s1 o1]. specialize (IHe2 s1).
    destruct (bind_e s1 e2) as [s2 o2]. cbn [fst] in *.
    destruct IHe1 as (A & Bb & C & Dd).
    destruct IHe2 as (A' & B' & C' & D'). repeat split; congruence.
  - specialize (IHe1 st). destruct (bind_e st e1) as [s1 o1]. specialize (IHe2 s1).
    destruct IHe1 as (A & Bb & C & Dd). destruct IHe2 as (A' & B' & C' & D').
    destruct o1; cbn [fst] in *; repeat split; congruence.
Qed.

Lemma var_block : forall st D L w q d v e, st_link st = L -> srep B st D (At w :: q) ->
  st_cs st <> [] ->
  res B st (bind_var false st v d e) D L (occ_e (At w :: q) e ++ [ODecl (At w :: q) Plain d])
    (At w :: q).
Proof.
  intros st D L w q d v e HL R NE. unfold bind_var.
  pose proof (proj1 (bind_e_res B e st D L (At w :: q) HL R)) as R1.
  pose proof (bind_e_same e st) as [_ [_ [SC _]]].
  destruct (bind_e st e) as [st1 o]. cbn [fst] in *.
  eapply res_seq; [exact R1| |].
  - pose proof (ext_check false st1 v d) as X. destruct (check_redef false st1 v d) as [st2 ok].
    cbn [fst] in X. destruct ok; [eapply ext_trans; [exact X|apply ext_define]|exact X].
  - intros LL RR _. apply decl_block; [exact LL|exact RR|congruence].
Qed.

Lemma const_block : forall st D L w q d v e, st_link st = L -> srep B st D (At w :: q) ->
  st_cs st <> [] ->
  res B st (bind_const false st v d e) D L (ODecl (At w :: q) Plain d :: occ_e (At w :: q) e)
    (At w :: q).
Proof.
  intros st D L w q d v e HL R NE. unfold bind_const.
  pose proof (decl_block st D L w q d v HL R NE) as R1.
  pose proof (check_block B st D L w q d v HL R NE) as [_ [_ CK]].
  destruct (check_redef false st v d) as [st2 ok]. cbn [fst snd] in *.
  change (ODecl (At w :: q) Plain d :: occ_e (At w :: q) e) with
    ([ODecl (At w :: q) Plain d] ++ occ_e (At w :: q) e).
  destruct ok.
  - eapply res_seq; [exact R1|apply ext_bind_e|]. intros LL RR _.
    exact (proj1 (bind_e_res B e _ _ _ _ LL RR)).
  - destruct (has_err (ev1 D L (ODecl (At w :: q) Plain d))) eqn:HE.
    + unfold res, resP. rewrite evs_app, has_err_app. cbn [evs]. rewrite app_nil_r, HE.
      cbn [orb]. exact (proj2 CK).
    + destruct CK as [CK _]. discriminate CK.
Qed.

(* Blocks. *)
Definition extends (x w : list nat) : Prop := exists r, x = r ++ w.
Definition fresh (D : table) (w : list nat) : Prop :=
  forall q d x, In (q, d) D -> In (At x) q -> ~ extends x w.
Definition low (q : place) (w : list nat) : Prop :=
  forall x, In (At x) q -> (length x < length w)%nat.

Lemma extends_cons : forall x a w, extends x (a :: w) -> extends x w.
Proof. intros x a w [r ->]. exists (r ++ [a]). rewrite <- app_assoc. reflexivity. Qed.
Lemma extends_len : forall x w, extends x w -> (length w <= length x)%nat.
Proof. intros x w [r ->]. rewrite app_length. lia. Qed.
Lemma extends_two : forall x a b w, extends x (a :: w) -> extends x (b :: w) -> a = b.
Proof.
  intros x a b w [r ->] [r' E].
  assert (L : length r = length r').
  { apply (f_equal (@length nat)) in E. rewrite !app_length in E. cbn in E. lia. }
  revert r' E L. induction r as [|y r IH]; intros [|y' r'] E L; cbn in *; try lia.
  - congruence.
  - injection E as _ E. apply (IH r'); [exact E|lia].
Qed.

Lemma fresh_cons : forall D a w, fresh D w -> fresh D (a :: w).
Proof. intros D a w F q d x I J K. exact (F q d x I J (extends_cons _ _ _ K)). Qed.
Lemma low_cons : forall q a w, low q w -> low q (a :: w).
Proof. intros q a w F x I. specialize (F x I). cbn [length]. lia. Qed.
Lemma low_in : forall q a w, low q w -> low (At w :: q) (a :: w).
Proof.
  intros q a w F x [E|I]; [injection E as <-; cbn; lia|]. specialize (F x I). cbn; lia.
Qed.

Lemma fresh_empty : forall D w q, fresh D w -> at_ D (At w :: q) = [].
Proof.
  intros D w q F. destruct (at_ D (At w :: q)) as [|d l] eqn:E; [reflexivity|]. exfalso.
  assert (I : In d (at_ D (At w :: q))) by (rewrite E; left; reflexivity).
  apply at_in in I. apply (F _ _ w I); [left; reflexivity|]. exists []. reflexivity.
Qed.

Lemma enter_rep : forall st D w q, srep B st D q -> fresh D w ->
  srep B (enter_lazy st KLocal) D (At w :: q).
Proof.
  intros st D w q R F. unfold srep, enter_lazy. cbn [st_heap st_cur st_cs].
  apply r_lazy; [exact R|apply fresh_empty; exact F|constructor].
Qed.

Lemma reparent_nth : forall p l h i, ~ In i l -> nth_error (reparent p l h) i = nth_error h i.
Proof.
  induction l as [|j l IH]; intros h i NI; cbn [reparent fold_left]; [reflexivity|].
  change (fold_left (fun h0 i0 => upd h0 i0 (set_parent p)) l (upd h j (set_parent p)))
    with (reparent p l (upd h j (set_parent p))).
  rewrite IH by (intros X; apply NI; right; exact X).
  apply nth_upd_other. intros ->. apply NI. left. reflexivity.
Qed.
Lemma reparent_length : forall p l h, length (reparent p l h) = length h.
Proof.
  induction l as [|j l IH]; intros h; cbn [reparent fold_left]; [reflexivity|].
  change (fold_left (fun h0 i0 => upd h0 i0 (set_parent p)) l (upd h j (set_parent p)))
    with (reparent p l (upd h j (set_parent p))).
  rewrite IH. apply upd_length.
Qed.

Lemma leave_rep : forall st D b q, srep B st D (b :: q) -> st_cs st <> [] ->
  srep B (leave_lazy st) D q /\ st_out (leave_lazy st) = st_out st /\
  st_link (leave_lazy st) = st_link st /\
  (length (st_heap st) <= length (st_heap (leave_lazy st)))%nat /\
  (forall i, (i <= B)%nat -> nth_error (st_heap (leave_lazy st)) i = nth_error (st_heap st) i) /\
  S (length (st_cs (leave_lazy st))) = length (st_cs st).
Proof.
  intros st D b q R NE. unfold srep in *. unfold leave_lazy.
  destruct (st_cs st) as [|c outer] eqn:EC; [congruence|]. clear NE.
  pose proof (rep_outer _ _ _ _ _ _ _ _ R) as RO.
  pose proof (rep_pend _ _ _ _ _ _ _ R) as RP.
  pose proof (rep_prev _ _ _ _ _ _ _ R) as RV.
  assert (HP : forall i, (i <= c_prev c \/ i <= B)%nat -> ~ In i (c_pending c)).
  { intros i LE I. rewrite Forall_forall in RP. specialize (RP i I). cbn in RP. lia. }
  destruct (Nat.eqb_spec (st_cur st) (c_prev c)) as [EQ|NEQ].
  - destruct outer as [|p rest]; cbn [st_heap st_cur st_cs st_out st_link].
    + split.
      { eapply rep_frame; [exact RO| |rewrite reparent_length; lia|reflexivity].
        intros i LE. apply reparent_nth. apply HP. left. exact LE. }
      split; [reflexivity|]. split; [reflexivity|]. split; [rewrite reparent_length; lia|].
      split; [|reflexivity]. intros i LE. apply reparent_nth. apply HP. right. exact LE.
    + cbn [reparent fold_left]. split.
      { apply rep_more; [exact RO|]. apply rep_prev in RO.
        eapply Forall_impl; [|exact RP]. cbn. intros i [I1 I2]. split; lia. }
      split; [reflexivity|]. split; [reflexivity|]. split; [lia|]. split; reflexivity.
  - assert (CL : (c_prev c < st_cur st)%nat) by lia.
    assert (CB : (B < st_cur st)%nat) by (inversion R; subst; cbn [c_prev] in *; try lia).
    destruct outer as [|p rest]; cbn [st_heap st_cur st_cs st_out st_link].
    + split.
      { eapply rep_frame; [exact RO| |rewrite reparent_length, upd_length; lia|reflexivity].
        intros i LE. rewrite reparent_nth by (apply HP; left; exact LE).
        apply nth_upd_other. lia. }
      split; [reflexivity|]. split; [reflexivity|].
      split; [rewrite reparent_length, upd_length; lia|].
      split; [|reflexivity]. intros i LE. rewrite reparent_nth by (apply HP; right; exact LE).
      apply nth_upd_other. lia.
    + split.
      { apply (rep_frame B (st_heap st) D); [| |rewrite reparent_length; apply le_n|reflexivity].
        - apply rep_more; [exact RO|]. apply rep_prev in RO. constructor; [split; lia|constructor].
        - intros i LE. apply reparent_nth. apply HP. left. exact LE. }
      split; [reflexivity|]. split; [reflexivity|]. split; [rewrite reparent_length; lia|].
      split; [|reflexivity]. intros i LE. apply reparent_nth. apply HP. right. exact LE.
Qed.

(* What a statement adds stands at its place, or in blocks on ways through it. *)
Definition grown (D D' : table) (q : place) (w : list nat) : Prop :=
  exists N, D' = N ++ D /\
  forall q' d, In (q', d) N ->
    (exists r, q' = map At r ++ q) /\
    forall x, In (At x) q' -> In (At x) q \/ extends x w.

Lemma grown_refl : forall D q w, grown D D q w.
Proof. intros. exists []. split; [reflexivity|]. intros q' d []. Qed.
Lemma grown_trans : forall D D1 D2 q w, grown D D1 q w -> grown D1 D2 q w -> grown D D2 q w.
Proof.
  intros D D1 D2 q w [N1 [-> H1]] [N2 [-> H2]]. exists (N2 ++ N1).
  split; [apply app_assoc|]. intros q' d I. apply in_app_or in I.
  destruct I as [I|I]; [apply (H2 _ _ I)|apply (H1 _ _ I)].
Qed.
Lemma grown_up : forall D D' q a w, grown D D' q (a :: w) -> grown D D' q w.
Proof.
  intros D D' q a w [N [-> H]]. exists N. split; [reflexivity|]. intros q' d I.
  destruct (H _ _ I) as [A C]. split; [exact A|]. intros x J.
  destruct (C x J) as [K|K]; [left; exact K|right; exact (extends_cons _ _ _ K)].
Qed.
Lemma grown_in : forall D D' q w, grown D D' (At w :: q) w -> grown D D' q w.
Proof.
  intros D D' q w [N [-> H]]. exists N. split; [reflexivity|]. intros q' d I.
  destruct (H _ _ I) as [[r ->] C]. split.
  - exists (r ++ [w]). rewrite map_app, <- app_assoc. reflexivity.
  - intros x J. destruct (C x J) as [[K|K]|K].
    + injection K as <-. right. exists []. reflexivity.
    + left. exact K.
    + right. exact K.
Qed.
Lemma grown_decl : forall D q w h d, grown D (dD D [ODecl q h d]) q w.
Proof.
  intros. exists [(q, d)]. split; [reflexivity|]. intros q' d' [E|[]]. injection E as <- <-.
  split; [exists []; reflexivity|]. intros x I. left. exact I.
Qed.

Lemma occ_s_grown : forall s q w D, grown D (dD D (occ_s q w s)) q w.
Proof.
  induction s; intros q w D; cbn [occ_s]; rewrite ?dD_app, ?occ_e_D.
  - apply grown_refl.
  - eapply grown_trans; [apply grown_up with (a := 0%nat), IHs1|
                         apply grown_up with (a := 1%nat), IHs2].
  - apply grown_refl.
  - apply grown_decl.
  - change (ODecl q Plain (mkD n p None) :: occ_e q e) with
      ([ODecl q Plain (mkD n p None)] ++ occ_e q e). rewrite dD_app, occ_e_D. apply grown_decl.
  - apply grown_in. apply grown_up with (a := 0%nat). apply IHs.
  - eapply grown_trans; [apply grown_up with (a := 0%nat), IHs1|
                         apply grown_up with (a := 1%nat), IHs2].
  - apply grown_up with (a := 0%nat), IHs.
  - destruct own.
    + apply grown_in. eapply grown_trans; [apply grown_up with (a := 0%nat), IHs1|
                         apply grown_up with (a := 1%nat), IHs2].
    + eapply grown_trans; [apply grown_up with (a := 0%nat), IHs1|
                         apply grown_up with (a := 1%nat), IHs2].
  - eapply grown_trans; [apply grown_up with (a := 0%nat), IHs1|
                         apply grown_up with (a := 1%nat), IHs2].
Qed.

(* The second of two parts is still fresh after the first. *)
Lemma fresh_after : forall D D' q w a b, a <> b -> fresh D w -> low q w ->
  grown D D' q (a :: w) -> fresh D' (b :: w).
Proof.
  intros D D' q w a b NE F LO [N [-> G]] q' d x I J K.
  apply in_app_or in I. destruct I as [I|I].
  - destruct (G _ _ I) as [_ C]. destruct (C x J) as [X|X].
    + specialize (LO x X). apply extends_len in K. cbn in K. lia.
    + exact (NE (extends_two _ _ _ _ X K)).
  - exact (F q' d x I J (extends_cons _ _ _ K)).
Qed.

Lemma keep_cs : forall st st', keep B st st' -> st_cs st <> [] -> st_cs st' <> [].
Proof.
  intros st st' [_ [_ L]] NE E. rewrite E in L. destruct (st_cs st); [congruence|discriminate].
Qed.

(* A block, given what is in it. *)
Lemma block_res : forall st st1 D L q w O, st_link st = L -> srep B st D q -> fresh D w ->
  (forall st0, st0 = enter_lazy st KLocal -> srep B st0 D (At w :: q) -> st_cs st0 <> [] ->
     st_link st0 = L -> res B st0 st1 D L O (At w :: q)) ->
  res B st (leave_lazy st1) D L O q.
Proof.
  intros st st1 D L q w O HL R F H.
  specialize (H _ eq_refl (enter_rep st D w q R F)). specialize (H ltac:(discriminate) HL).
  unfold res, resP in *. destruct (has_err (evs D L O)).
  - destruct H as [new [N1 N2]]. destruct (ext_leave st1) as [x X].
    exists (new ++ x). rewrite X, N1, app_assoc. split; [reflexivity|].
    rewrite has_err_app, N2. reflexivity.
  - destruct H as [A1 [A2 [A3 A4]]].
    assert (NE : st_cs st1 <> []) by (apply (keep_cs _ _ A4); discriminate).
    destruct (leave_rep st1 _ _ _ A3 NE) as [B1 [B2 [B3 [B4 [B5 B6]]]]].
    destruct A4 as [K1 [K2 K3]]. cbn [enter_lazy st_heap st_cs length] in K1, K2, K3.
    split; [rewrite B2; exact A1|]. split; [congruence|]. split; [exact B1|].
    split; [lia|]. split; [intros i LE; rewrite (B5 _ LE); apply K2; exact LE|lia].
Qed.

Lemma bind_s_res : forall s st D L w0 q0 w, let q := At w0 :: q0 in
  st_link st = L -> srep B st D q -> st_cs st <> [] -> fresh D w -> low q w ->
  res B st (bind_s false st s) D L (occ_s q w s) q.
Proof.
  assert (two : forall s1 s2 st st1 D L O w0 q0 w,
    (forall st D L w, st_link st = L -> srep B st D (At w0 :: q0) -> st_cs st <> [] ->
       fresh D w -> low (At w0 :: q0) w ->
       res B st (bind_s false st s1) D L (occ_s (At w0 :: q0) w s1) (At w0 :: q0)) ->
    (forall st D L w, st_link st = L -> srep B st D (At w0 :: q0) -> st_cs st <> [] ->
       fresh D w -> low (At w0 :: q0) w ->
       res B st (bind_s false st s2) D L (occ_s (At w0 :: q0) w s2) (At w0 :: q0)) ->
    st_cs st <> [] -> fresh D w -> low (At w0 :: q0) w ->
    res B st st1 D L O (At w0 :: q0) -> dD D O = D ->
    res B st (bind_s false (bind_s false st1 s1) s2) D L
      (O ++ occ_s (At w0 :: q0) (0 :: w)%nat s1 ++ occ_s (At w0 :: q0) (1 :: w)%nat s2)
      (At w0 :: q0)).
  { intros s1 s2 st st1 D L O w0 q0 w I1 I2 NE F LO R0 DO.
    eapply res_seq; [exact R0| |].
    - eapply ext_trans; apply ext_bind_s.
    - intros LL RR KK. rewrite DO in *. eapply res_seq.
      + apply (I1 st1 D _ (0 :: w)%nat LL RR (keep_cs _ _ KK NE)).
        * apply fresh_cons, F.
        * apply low_cons, LO.
      + apply ext_bind_s.
      + intros LL2 RR2 KK2. apply I2; [exact LL2|exact RR2| | |].
        * exact (keep_cs _ _ KK2 (keep_cs _ _ KK NE)).
        * eapply (fresh_after D _ (At w0 :: q0) w 0%nat 1%nat); [discriminate|exact F|exact LO|].
          apply occ_s_grown.
        * apply low_cons, LO. }
  induction s; intros st D L w0 q0 w q HL R NE F LO; subst q; cbn [bind_s occ_s].
  - apply res_nil; assumption.
  - apply (two s1 s2 st st D L [] w0 q0 w);
      [intros; apply IHs1; assumption|intros; apply IHs2; assumption|exact NE|exact F|exact LO| |
       reflexivity].
    apply res_nil; assumption.
  - exact (proj1 (bind_e_res B e st D L _ HL R)).
  - apply var_block; assumption.
  - apply const_block; assumption.
  - eapply block_res; [exact HL|exact R|exact F|]. intros st0 -> R0 N0 L0.
    apply IHs; [exact L0|exact R0|exact N0|apply fresh_cons, F|apply low_in, LO].
  - apply two;
      [intros; apply IHs1; assumption|intros; apply IHs2; assumption|exact NE|exact F|exact LO| |
       apply occ_e_D].
    exact (proj1 (bind_e_res B e st D L _ HL R)).
  - eapply res_seq; [exact (proj1 (bind_e_res B e st D L _ HL R))|apply ext_bind_s|].
    intros LL RR KK. rewrite occ_e_D in *. apply IHs; [exact LL|exact RR|exact (keep_cs _ _ KK NE)| |].
    + apply fresh_cons, F.
    + apply low_cons, LO.
  - assert (IN : forall st1 D1 L1 w1 q1, st_link st1 = L1 -> srep B st1 D1 (At w1 :: q1) ->
       st_cs st1 <> [] -> fresh D1 (0 :: w)%nat -> fresh D1 w -> low (At w1 :: q1) (0 :: w)%nat ->
       (forall x, In (At x) (At w1 :: q1) -> (length x <= length w)%nat) ->
       res B st1 (bind_s false (fst (bind_e (fst (bind_e (bind_s false st1 s1) c)) a)) s2) D1 L1
         (occ_s (At w1 :: q1) (0 :: w)%nat s1 ++ occ_e (At w1 :: q1) c ++ occ_e (At w1 :: q1) a ++
          occ_s (At w1 :: q1) (1 :: w)%nat s2) (At w1 :: q1)).
    { intros st1 D1 L1 w1 q1 L1E R1 N1 F1 F1' LO1 LO2.
      eapply res_seq; [apply IHs1; assumption| |].
      - eapply ext_trans; [apply ext_bind_e|]. eapply ext_trans; [apply ext_bind_e|apply ext_bind_s].
      - intros LL RR KK. eapply res_seq;
          [exact (proj1 (bind_e_res B c _ _ _ _ LL RR))| |].
        + eapply ext_trans; [apply ext_bind_e|apply ext_bind_s].
        + intros LL2 RR2 KK2. eapply res_seq;
            [exact (proj1 (bind_e_res B a _ _ _ _ LL2 RR2))|apply ext_bind_s|].
          intros LL3 RR3 KK3. rewrite !occ_e_D in *. apply IHs2; [exact LL3|exact RR3| | |].
          * exact (keep_cs _ _ KK3 (keep_cs _ _ KK2 (keep_cs _ _ KK N1))).
          * pose proof (occ_s_grown s1 (At w1 :: q1) (0 :: w)%nat D1) as [N [-> G]].
            intros q' d x I J K. apply in_app_or in I. destruct I as [I|I].
            -- destruct (G _ _ I) as [_ C]. destruct (C x J) as [X|X].
               ++ specialize (LO2 x X). apply extends_len in K. cbn in K. lia.
               ++ discriminate (extends_two _ _ _ _ X K).
            -- exact (F1' q' d x I J (extends_cons _ _ _ K)).
          * intros x X. specialize (LO1 x X). cbn in *. lia. }
    destruct own.
    + eapply block_res; [exact HL|exact R|exact F|]. intros st0 -> R0 N0 L0.
      apply IN; [exact L0|exact R0|exact N0|apply fresh_cons, F|exact F|apply low_in, LO|].
      intros x X. pose proof (low_in _ 0%nat _ LO x X) as Y. cbn in Y. lia.
    + apply IN; [exact HL|exact R|exact NE|apply fresh_cons, F|exact F|apply low_cons, LO|].
      intros x X. specialize (LO x X). lia.
  - apply two;
      [intros; apply IHs1; assumption|intros; apply IHs2; assumption|exact NE|exact F|exact LO| |
       apply occ_e_D].
    exact (proj1 (bind_e_res B e st D L _ HL R)).
Qed.

End Walk.
