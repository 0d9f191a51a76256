(* Arguments, functions and the items of files; the whole program. *)

From Coq Require Import ZArith List Bool Arith Lia.
From Verif Require Import Names_Model Names_Spec Names_Rep Names_Steps Names_Walk.
Import ListNotations.
Local Open Scope Z_scope.

Section Top.
Variable B : nat.

(* Where the arguments of a function go. *)
Definition argrep (st : state) (D : table) (q : place) : Prop :=
  exists w q' prev, q = At w :: q' /\ st_cs st = [] /\ (prev < st_cur st)%nat /\
  (B < st_cur st)%nat /\ rep B (st_heap st) D q' prev [] /\
  nth_error (st_heap st) (st_cur st) = Some (mkS (Some prev) KArg (at_ D q)).

Lemma argrep_srep : forall st D q, argrep st D q -> srep B st D q.
Proof.
  intros st D q (w & q' & prev & -> & CS & PL & BL & R & N). unfold srep. rewrite CS.
  apply r_arg with (cur := prev); assumption.
Qed.

Lemma argrep_made : forall st D q, argrep st D q -> made_at B st D q (st_cur st) KArg.
Proof.
  intros st D q (w & q' & prev & -> & CS & PL & BL & R & N).
  exists w, q', prev. split; [reflexivity|]. split; [reflexivity|].
  split; [unfold scope_for_add; rewrite CS; reflexivity|].
  split; [exact PL|]. split; [exact BL|]. split; [exact N|].
  intros h' D' E1 E2 E3 E4. rewrite CS. apply r_arg with (cur := prev); try assumption.
  eapply rep_frame; [exact R| |exact E3|exact E4]. intros j J. apply E2. lia.
Qed.

Definition how_of (native : bool) : how := if native then NativeArgument else Argument.

Lemma decl_arg : forall native st D L q d, st_link st = L -> argrep st D q ->
  resP B (fun s T => argrep s T q) st
    (let '(st2, ok) := check_redef native st VLocal d in
     if ok then define st2 VLocal d else st2)
    D L [ODecl q (how_of native) d].
Proof.
  intros native st D L q d HL AR.
  pose proof (argrep_made _ _ _ AR) as MA. pose proof (argrep_srep _ _ _ AR) as SR.
  destruct AR as (w & q' & prev & -> & CS & PL & BL & R & N).
  assert (SF : scope_for_add st = (st, st_cur st)) by (unfold scope_for_add; rewrite CS; reflexivity).
  assert (KC : kind_of (st_heap st) (st_cur st) = KArg) by (unfold kind_of; rewrite N; reflexivity).
  assert (LT : (st_cur st < length (st_heap st))%nat) by exact (proj1 (rep_lt _ _ _ _ _ _ SR)).
  assert (LK : if native
    then True
    else match tab_find (d_name d) (at_ D (At w :: q')) with
         | Some x => look st (d_name d) = LFound x (st_cur st)
         | None => match vis D q' (d_name d) with
                   | Some (_, x) => exists s, look st (d_name d) = LFound x s /\ (s < st_cur st)%nat
                   | None => look st (d_name d) = LNone
                   end
         end).
  { destruct native; [exact Logic.I|]. unfold look.
    destruct (length (st_heap st)) as [|fu] eqn:LL; [lia|]. cbn [find_sym]. rewrite N.
    cbn [s_tab s_parent]. destruct (tab_find (d_name d) (at_ D (At w :: q'))); [reflexivity|].
    pose proof (rep_find _ _ _ _ _ _ R (d_name d) fu ltac:(lia)) as F.
    destruct (vis D q' (d_name d)) as [[q2 x]|]; [|exact F].
    destruct F as [s [F1 F2]]. exists s. split; [exact F1|lia]. }
  assert (FIN : tab_find (d_name d) (at_ D (At w :: q')) = None -> forall e,
     (is_error e = false) ->
     forall evl st2, evl = [e] /\ st2 = say e st \/ evl = [] /\ st2 = st ->
     resP B (fun s T => argrep s T (At w :: q')) st (define st2 VLocal d) D L
       [ODecl (At w :: q') (how_of native) d] \/
     evl <> ev1 D L (ODecl (At w :: q') (how_of native) d)).
  { intros NF e NEe evl st2 C.
    destruct (list_eq_dec (fun a b : ev => ltac:(decide equality; apply Z.eq_dec)) evl
      (ev1 D L (ODecl (At w :: q') (how_of native) d))) as [EQ|NQ]; [left|right; exact NQ].
    assert (MA2 : made_at B st2 D (At w :: q') (st_cur st) KArg /\ st_link st2 = L /\
              st_out st2 = st_out st ++ evl /\ st_heap st2 = st_heap st /\ st_cs st2 = []).
    { destruct C as [[-> ->]|[-> ->]].
      - split; [|cbn; auto]. destruct MA as (w1 & q1 & p1 & E1 & E2 & E3 & E4 & E5 & E6 & E7).
        exists w1, q1, p1. cbn [say st_heap st_cur st_cs]. split; [exact E1|].
        split; [exact E2|]. split; [unfold scope_for_add; cbn [say st_cs]; rewrite CS; reflexivity|].
        auto.
      - rewrite app_nil_r. auto. }
    destruct MA2 as [MA2 [L2 [O2 [H2 C2]]]].
    destruct (define_made B st2 D L (At w :: q') (st_cur st) KArg VLocal d MA2 (or_introl eq_refl)
                L2 NF) as [A1 [A2 [A3 [A4 A5]]]].
    unfold resP. cbn [evs]. rewrite app_nil_r, <- EQ. cbn [dL dL1 dD dD1].
    assert (HE : has_err evl = false).
    { destruct C as [[-> _]|[-> _]]; cbn; [rewrite NEe|]; reflexivity. }
    rewrite HE. split; [rewrite A1; exact O2|]. split; [exact A2|]. split.
    - assert (CUR : st_cur (define st2 VLocal d) = st_cur st).
      { destruct MA2 as (w1 & q1 & p1 & E1 & E2 & E3 & E4 & E5 & E6 & E7).
        unfold define. rewrite E3, E6. cbn [s_kind kind_eqb andb].
        unfold kind_of. rewrite E6. cbn [s_kind global_or_file s_tab]. rewrite NF. exact E2. }
      unfold srep in A3. rewrite A5, C2, CUR in A3.
      exists w, q', prev. split; [reflexivity|]. split; [congruence|]. rewrite CUR.
      split; [exact PL|]. split; [exact BL|].
      assert (HP : forall j, (j < st_cur st)%nat ->
                 nth_error (st_heap (define st2 VLocal d)) j = nth_error (st_heap st) j).
      { destruct MA2 as (w1 & q1 & p1 & E1 & E2 & E3 & E4 & E5 & E6 & E7).
        intros j J. unfold define. rewrite E3, E6. cbn [s_kind kind_eqb andb].
        unfold kind_of. rewrite E6. cbn [s_kind global_or_file s_tab]. rewrite NF.
        cbn [st_heap]. rewrite nth_upd_other by lia. congruence. }
      split.
      + eapply rep_frame; [exact R| | |].
        * intros j J. apply HP. lia.
        * destruct A4 as [A4 _]. rewrite H2 in A4. exact A4.
        * intros q1 A. apply at_deeper. apply around_len in A. cbn [length]. lia.
      + destruct MA2 as (w1 & q1 & p1 & E1 & E2 & E3 & E4 & E5 & E6 & E7).
        unfold define. rewrite E3, E6. cbn [s_kind kind_eqb andb].
        unfold kind_of. rewrite E6. cbn [s_kind global_or_file s_tab]. rewrite NF.
        cbn [st_heap]. rewrite nth_upd_same, E6. cbn [option_map]. unfold add_tab.
        cbn [s_parent s_kind s_tab]. rewrite at_cons.
        destruct (place_dec (At w :: q') (At w :: q')); [|congruence].
        rewrite H2, N in E6. injection E6 as <-. reflexivity.
    - destruct A4 as [K1 [K2 K3]]. rewrite H2 in K1, K2. split; [exact K1|]. split; [exact K2|].
      rewrite A5, C2, CS. reflexivity. }
  unfold check_redef, new_status. rewrite N. cbn [s_tab].
  destruct (tab_find (d_name d) (at_ D (At w :: q'))) as [x|] eqn:TF.
  - assert (RD : resP B (fun s T => argrep s T (At w :: q')) st (say (Redef (d_pos d)) st) D L
                   [ODecl (At w :: q') (how_of native) d]).
    { unfold resP. cbn [evs ev1]. rewrite TF. cbn [app has_err existsb is_error orb].
      exists [Redef (d_pos d)]. split; reflexivity. }
    destruct native.
    + rewrite SF, KC. cbn [global_or_file kind_eqb andb]. rewrite ?andb_false_r, Nat.eqb_refl.
      exact RD.
    + rewrite LK, SF, KC. cbn [global_or_file kind_eqb andb]. rewrite ?andb_false_r, Nat.eqb_refl.
      exact RD.
  - specialize (FIN eq_refl). destruct native.
    + destruct (FIN (Shadow (d_pos d)) eq_refl [] st (or_intror (conj eq_refl eq_refl))) as [X|X];
        [exact X|]. cbn [ev1 how_of] in X. rewrite TF in X. congruence.
    + destruct (vis D q' (d_name d)) as [[q2 x]|] eqn:VI.
      * destruct LK as [s [-> SLT]]. rewrite SF, KC. cbn [global_or_file kind_eqb andb].
        rewrite ?andb_false_r.
        replace (Nat.eqb s (st_cur st)) with false by (symmetry; apply Nat.eqb_neq; lia).
        destruct (d_fn x) as [fa|] eqn:FX.
        -- destruct (FIN (Shadow (d_pos d)) eq_refl [] st (or_intror (conj eq_refl eq_refl)))
             as [X|X]; [exact X|]. cbn [ev1 how_of tl] in X. rewrite TF, VI, FX in X. congruence.
        -- destruct (FIN (Shadow (d_pos d)) eq_refl [Shadow (d_pos d)] (say (Shadow (d_pos d)) st)
             (or_introl (conj eq_refl eq_refl))) as [X|X]; [exact X|].
           cbn [ev1 how_of tl] in X. rewrite TF, VI, FX in X. congruence.
      * rewrite LK. destruct (FIN (Shadow (d_pos d)) eq_refl [] st (or_intror (conj eq_refl eq_refl)))
          as [X|X]; [exact X|]. cbn [ev1 how_of tl] in X. rewrite TF, VI in X. congruence.
Qed.

Lemma argrep_same : forall st st' D q, argrep st D q -> st_heap st' = st_heap st ->
  st_cur st' = st_cur st -> st_cs st' = st_cs st -> argrep st' D q.
Proof.
  intros st st' D q (w & q' & prev & -> & CS & PL & BL & R & N) E1 E2 E3.
  exists w, q', prev. rewrite E1, E2, E3. repeat split; try assumption.
Qed.

Lemma bind_e_arg : forall e st D L q, st_link st = L -> argrep st D q ->
  resP B (fun s T => argrep s T q) st (fst (bind_e st e)) D L (occ_e q e).
Proof.
  intros e st D L q HL AR.
  pose proof (proj1 (bind_e_res B e st D L q HL (argrep_srep _ _ _ AR))) as R.
  pose proof (bind_e_same e st) as [E1 [E2 [E3 _]]].
  unfold res, resP in *. destruct (has_err (evs D L (occ_e q e))); [exact R|].
  destruct R as [A1 [A2 [_ A4]]]. split; [exact A1|]. split; [exact A2|]. split; [|exact A4].
  rewrite occ_e_D. exact (argrep_same _ _ _ _ AR E1 E2 E3).
Qed.

Lemma ext_args : forall native l st, ext st (bind_args native st l).
Proof.
  induction l as [|x l IH]; intros st; cbn [bind_args]; [apply ext_refl|].
  eapply ext_trans; [apply ext_var|apply IH].
Qed.

Lemma bind_args_res : forall native l st D L q, st_link st = L -> argrep st D q ->
  resP B (fun s T => argrep s T q) st (bind_args native st l) D L (occ_args q (how_of native) l).
Proof.
  induction l as [|x l IH]; intros st D L q HL AR; cbn [bind_args occ_args].
  - unfold resP. cbn [evs has_err existsb dL dD]. rewrite app_nil_r.
    split; [reflexivity|]. split; [exact HL|]. split; [exact AR|apply keep_refl].
  - eapply resP_seq.
    + exact (bind_e_arg (a_init x) st D L q HL AR).
    + unfold bind_var. destruct (bind_e st (a_init x)) as [st1 o1]. cbn [fst].
      eapply ext_trans; [|apply ext_args].
      pose proof (ext_check native st1 VLocal (mkD (a_name x) (a_pos x) None)) as X.
      destruct (check_redef native st1 VLocal (mkD (a_name x) (a_pos x) None)) as [st2 ok].
      cbn [fst] in X. destruct ok; [eapply ext_trans; [exact X|apply ext_define]|exact X].
    + intros LL AR1 _. unfold bind_var. destruct (bind_e st (a_init x)) as [st1 o1].
      cbn [fst] in *.
      change (ODecl q (how_of native) (mkD (a_name x) (a_pos x) None) :: occ_args q (how_of native) l)
        with ([ODecl q (how_of native) (mkD (a_name x) (a_pos x) None)] ++
              occ_args q (how_of native) l).
      eapply resP_seq.
      * exact (decl_arg native st1 _ _ q (mkD (a_name x) (a_pos x) None) LL AR1).
      * apply ext_args.
      * intros LL2 AR2 _. apply IH; assumption.
Qed.

(* The scopes there are between items. *)
Definition top (st : state) (D : table) : Prop :=
  st_cs st = [] /\ (B < length (st_heap st))%nat /\
  nth_error (st_heap st) 0 = Some (mkS None KGlobal (at_ D [])) /\
  forall f, (f < B)%nat ->
    nth_error (st_heap st) (S f) = Some (mkS (Some 0%nat) KFile (at_ D [InFile f])).

Lemma top_rep : forall st D f, top st D -> (f < B)%nat ->
  rep B (st_heap st) D [InFile f] (S f) [].
Proof.
  intros st D f (CS & BL & N0 & NF) F. apply r_file; [exact F| |exact (NF f F)].
  apply r_glob; assumption.
Qed.

Lemma top_srep : forall st D f, top st D -> (f < B)%nat -> srep B (in_file st f) D [InFile f].
Proof.
  intros st D f T F. unfold srep, in_file. cbn [st_heap st_cur st_cs].
  rewrite (proj1 T). exact (top_rep _ _ _ T F).
Qed.

(* Nothing that is added in functions stands outside of them. *)
Lemma top_keep : forall st st' D N, top st D -> st_cs st' = [] ->
  (length (st_heap st) <= length (st_heap st'))%nat ->
  (forall i, (i <= B)%nat -> nth_error (st_heap st') i = nth_error (st_heap st) i) ->
  (forall q d, In (q, d) N -> exists w r, q = At w :: r) ->
  top st' (N ++ D).
Proof.
  intros st st' D N (CS & BL & N0 & NF) C1 L1 H1 HN.
  assert (AT : forall q, (forall w r, q <> At w :: r) -> at_ (N ++ D) q = at_ D q).
  { intros q NE. induction N as [|[q1 d1] N IH]; [reflexivity|]. cbn [app]. rewrite at_cons.
    destruct (place_dec q1 q) as [->|].
    - destruct (HN q d1 (or_introl eq_refl)) as [w [r E]]. destruct (NE w r E).
    - apply IH. intros q' d I. apply (HN q' d). right. exact I. }
  split; [exact C1|]. split; [lia|]. split.
  - rewrite H1 by lia. rewrite AT by (intros; discriminate). exact N0.
  - intros f F. rewrite H1 by lia. rewrite AT by (intros; discriminate). apply NF, F.
Qed.

Lemma grown_args : forall how l q w D, grown D (dD D (occ_args q how l)) q w.
Proof.
  induction l as [|x l IH]; intros q w D; cbn [occ_args]; [apply grown_refl|].
  rewrite dD_app, occ_e_D.
  change (ODecl q how (mkD (a_name x) (a_pos x) None) :: occ_args q how l)
    with ([ODecl q how (mkD (a_name x) (a_pos x) None)] ++ occ_args q how l).
  rewrite dD_app. eapply grown_trans; [apply grown_decl|apply IH].
Qed.

Lemma bind_fun_res : forall native args body st D L f k, st_link st = L -> top st D ->
  (f < B)%nat -> st_cur st = S f -> fresh D [k] -> (native = true -> body = SSkip) ->
  resP B (fun s T => top s T) st (bind_fun native st args body) D L (occ_fun f k native args body).
Proof.
  intros native args body st D L f k HL T F CU FR NB. unfold bind_fun, occ_fun. rewrite CU.
  set (q := [At [k]; InFile f]).
  set (st0 := mkSt (st_heap st) (S f) [] (st_link st) (st_out st)).
  set (st1 := match args with
              | [] => st0
              | _ :: _ => bind_args native (mkSt (st_heap st0 ++ [mkS (Some (S f)) KArg []])
                  (length (st_heap st0)) [] (st_link st0) (st_out st0)) args
              end).
  assert (BL : (B < length (st_heap st))%nat) by exact (proj1 (proj2 T)).
  assert (E0 : at_ D q = []) by (apply fresh_empty; exact FR).
  (* the arguments *)
  assert (R1 : resP B (fun s s0 => srep B s s0 q /\ st_cs s = []) st st1 D L
                 (occ_args q (how_of native) args)).
  { destruct args as [|x args].
    - unfold resP. cbn. rewrite app_nil_r. split; [reflexivity|]. split; [exact HL|].
      split; [|split; [auto|split; [auto|rewrite (proj1 T); reflexivity]]].
      split; [|reflexivity]. unfold srep. cbn [st_heap st_cur st_cs].
      apply r_noarg; [exact (top_rep _ _ _ T F)|exact E0].
    - set (stA := mkSt (st_heap st0 ++ [mkS (Some (S f)) KArg []]) (length (st_heap st0)) []
                    (st_link st0) (st_out st0)) in *.
      assert (AR : argrep stA D q).
      { exists [k], [InFile f], (S f). split; [reflexivity|]. split; [reflexivity|].
        cbn [stA st_cur st_heap st0]. split; [lia|]. split; [lia|]. split.
        - eapply rep_frame; [exact (top_rep _ _ _ T F)| |rewrite app_length; lia|reflexivity].
          intros i LE. apply nth_error_app1. lia.
        - rewrite nth_error_app2 by lia. rewrite Nat.sub_diag. rewrite E0. reflexivity. }
      pose proof (bind_args_res native (x :: args) stA D L q HL AR) as RA. unfold resP in *.
      change (bind_args native stA (x :: args)) with st1 in RA.
      destruct (has_err (evs D L (occ_args q (how_of native) (x :: args)))); [exact RA|].
      destruct RA as [A1 [A2 [A3 [K1 [K2 K3]]]]].
      split; [exact A1|]. split; [exact A2|]. split.
      + split; [exact (argrep_srep _ _ _ A3)|].
        destruct A3 as (? & ? & ? & ? & C & ?). exact C.
      + cbn [stA st_heap st0 st_cs] in K1, K2, K3. rewrite app_length in K1. cbn [length] in K1.
        split; [lia|]. split; [|rewrite (proj1 T); exact K3].
        intros i LE. rewrite (K2 i LE). apply nth_error_app1. lia. }
  set (D1 := dD D (occ_args q (how_of native) args)) in *.
  assert (G1 : grown D D1 q [k]) by apply grown_args.
  assert (FR1 : fresh D1 [0; k]%nat).
  { destruct G1 as [N [EN G]]. rewrite EN. intros q' d x I J K. apply in_app_or in I.
    destruct I as [I|I].
    - destruct (G _ _ I) as [_ C].
      destruct (C x J) as [[X|[X|[]]]|X].
      + injection X as <-. apply extends_len in K. cbn in K. lia.
      + discriminate X.
      + clear -EN I J K C X. revert EN I. unfold D1.
        intros EN I.
        assert (PL : forall l D0 N0, dD D0 (occ_args q (how_of native) l) = N0 ++ D0 ->
                   forall y, In y N0 -> fst y = q).
        { clear. induction l as [|y l IH]; intros D0 N0 E z IZ; cbn [occ_args] in E.
          - cbn [dD] in E. assert (N0 = []).
            { destruct N0; [reflexivity|]. apply (f_equal (@length _)) in E. cbn in E.
              rewrite app_length in E. lia. }
            subst N0. destruct IZ.
          - rewrite dD_app, occ_e_D in E. cbn [dD dD1] in E.
            pose proof (grown_args (how_of native) l q [] ((q, mkD (a_name y) (a_pos y) None) :: D0))
              as [N1 [E1 _]].
            pose proof (IH _ _ E1) as IH1. rewrite E1 in E.
            change ((q, mkD (a_name y) (a_pos y) None) :: D0) with
              ([(q, mkD (a_name y) (a_pos y) None)] ++ D0) in E. rewrite app_assoc in E.
            apply app_inv_tail in E. subst N0. apply in_app_or in IZ.
            destruct IZ as [IZ|[<-|[]]]; [exact (IH1 _ IZ)|reflexivity]. }
        pose proof (PL args D N EN _ I) as Q. cbn [fst] in Q. subst q'.
        destruct J as [J|[J|[]]]; [|discriminate J]. injection J as <-.
        apply extends_len in K. cbn in K. lia.
    - exact (FR q' d x I J (extends_cons _ _ _ K)). }
  (* the body *)
  assert (R2 : resP B (fun s s0 => srep B s s0 q /\ st_cs s = []) st (bind_s native st1 (SBlock body))
                 D L (occ_args q (how_of native) args ++ occ_s q [0; k]%nat (SBlock body))).
  { eapply resP_seq; [exact R1|apply ext_bind_s|]. intros LL [RR CS] _.
    assert (RB : res B st1 (bind_s native st1 (SBlock body)) D1
                   (dL D L (occ_args q (how_of native) args))
                   (occ_s q [0; k]%nat (SBlock body)) q).
    { destruct native.
      - rewrite (NB eq_refl). cbn [bind_s occ_s]. eapply block_res; [exact LL|exact RR|exact FR1|].
        intros s -> R0 N0 L0. apply res_nil; [exact L0|exact R0].
      - cbn [bind_s occ_s]. eapply block_res; [exact LL|exact RR|exact FR1|].
        intros s -> R0 N0 L0. apply bind_s_res; [exact L0|exact R0|exact N0| |].
        + apply fresh_cons. exact FR1.
        + intros x [X|[X|[X|[]]]]; try discriminate X; injection X as <-; cbn; lia. }
    fold D1. unfold res, resP in RB |- *.
    destruct (has_err (evs D1 (dL D L (occ_args q (how_of native) args))
                (occ_s q [0; k]%nat (SBlock body)))); [exact RB|].
    destruct RB as [A1 [A2 [A3 A4]]]. split; [exact A1|]. split; [exact A2|]. split; [|exact A4].
    split; [exact A3|]. destruct A4 as [_ [_ A4]]. rewrite CS in A4.
    destruct (st_cs (bind_s native st1 (SBlock body))); [reflexivity|discriminate A4]. }
  assert (G2 : grown D (dD D (occ_args q (how_of native) args ++ occ_s q [0; k]%nat (SBlock body)))
                 q [k]).
  { rewrite dD_app. eapply grown_trans; [exact G1|]. apply grown_up with (a := 0%nat).
    apply occ_s_grown. }
  change (if native then NativeArgument else Argument) with (how_of native).
  remember (occ_args q (how_of native) args ++ occ_s q [0; k]%nat (SBlock body)) as OO eqn:EO.
  unfold resP in R2 |- *.
  destruct (has_err (evs D L OO)); [exact R2|].
  destruct R2 as [A1 [A2 [[A3 A3'] [K1 [K2 K3]]]]].
  split; [exact A1|]. split; [exact A2|]. split.
  - destruct G2 as [N [-> G2]]. eapply top_keep with (st := st); cbn [st_cs st_heap].
    + exact T.
    + exact (proj1 T).
    + exact K1.
    + exact K2.
    + intros q' d I. destruct (G2 _ _ I) as [[r E] C].
      destruct r as [|w r]; cbn in E; [exists [k], [InFile f]; exact E|].
      exists w, (map At r ++ q). exact E.
  - split; [exact K1|]. split; [exact K2|reflexivity].
Qed.
End Top.
