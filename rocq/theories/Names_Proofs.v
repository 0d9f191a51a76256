(* What the fold over the occurrences says, in the words of the specification. *)

From Coq Require Import ZArith List Bool Arith Lia.
From Verif Require Import Names_Model Names_Spec Names_Rep Names_Steps Names_Walk Names_Top
  Names_Whole.
Import ListNotations.
Local Open Scope Z_scope.

Lemma tab_none : forall D q n, tab_find n (at_ D q) = None <-> forall d, ~ declared_at D q n d.
Proof.
  intros D q n. split.
  - intros E d [I N]. apply at_in in I. exact (tab_find_none _ _ E _ I N).
  - intros H. destruct (tab_find n (at_ D q)) as [d|] eqn:E; [|reflexivity].
    destruct (tab_find_some _ _ _ E) as [I N]. apply at_in in I.
    destruct (H d (conj I N)).
Qed.
Lemma tab_some : forall D q n d, tab_find n (at_ D q) = Some d -> declared_at D q n d.
Proof.
  intros D q n d E. destruct (tab_find_some _ _ _ E) as [I N]. apply at_in in I. split; assumption.
Qed.

Lemma vis_none : forall D p n, vis D p n = None <-> ~ visible D p n.
Proof.
  intros D p n. induction p as [|b p IH].
  - cbn [vis]. split.
    + intros E [q [d [[r A] H]]]. destruct (tab_find n (at_ D [])) eqn:T; [discriminate|].
      destruct r; [|discriminate A]. cbn in A. subst q. exact (proj1 (tab_none _ _ _) T d H).
    + intros H. destruct (tab_find n (at_ D [])) as [d|] eqn:T; [|reflexivity].
      exfalso. apply H. exists [], d. split; [apply around_refl|exact (tab_some _ _ _ _ T)].
  - change (vis D (b :: p) n) with (match tab_find n (at_ D (b :: p)) with
      | Some d => Some (b :: p, d) | None => vis D p n end).
    split.
    + intros E [q [d [A H]]]. destruct (tab_find n (at_ D (b :: p))) eqn:T; [discriminate|].
      apply around_inv in A. destruct A as [-> | A].
      * exact (proj1 (tab_none _ _ _) T d H).
      * apply (proj1 IH E). exists q, d. split; assumption.
    + intros H. destruct (tab_find n (at_ D (b :: p))) as [d|] eqn:T.
      * exfalso. apply H. exists (b :: p), d.
        split; [apply around_refl|exact (tab_some _ _ _ _ T)].
      * apply IH. intros [q [d [A K]]]. apply H. exists q, d. split; [apply around_cons, A|exact K].
Qed.

Lemma vis_some : forall D p n q d, vis D p n = Some (q, d) -> means D p n q d.
Proof.
  intros D p n q d. induction p as [|b p IH]; intros E.
  - cbn [vis] in E. destruct (tab_find n (at_ D [])) as [d0|] eqn:T; [|discriminate].
    injection E as <- <-. split; [apply around_refl|]. split; [exact (tab_some _ _ _ _ T)|].
    intros q' d' A _. exact A.
  - change (vis D (b :: p) n) with (match tab_find n (at_ D (b :: p)) with
      | Some d => Some (b :: p, d) | None => vis D p n end) in E.
    destruct (tab_find n (at_ D (b :: p))) as [d0|] eqn:T.
    + injection E as <- <-. split; [apply around_refl|]. split; [exact (tab_some _ _ _ _ T)|].
      intros q' d' A _. exact A.
    + destruct (IH E) as [A [H I]]. split; [apply around_cons, A|]. split; [exact H|].
      intros q' d' A' H'. apply around_inv in A'. destruct A' as [-> | A'].
      * destruct (proj1 (tab_none _ _ _) T d' H').
      * exact (I q' d' A' H').
Qed.

Lemma vis_visible : forall D p n x, vis D p n = Some x -> visible D p n.
Proof.
  intros D p n [q d] E. destruct (vis_some _ _ _ _ _ E) as [A [H _]]. exists q, d. split; assumption.
Qed.

Lemma visible_vis : forall D p n, visible D p n -> exists q d, vis D p n = Some (q, d).
Proof.
  intros D p n V. destruct (vis D p n) as [[q d]|] eqn:E; [eauto|].
  destruct (proj1 (vis_none _ _ _) E V).
Qed.

Lemma around_anti : forall a b, around a b -> around b a -> a = b.
Proof.
  intros a b [r ->] [r' E]. destruct r as [|x r]; [reflexivity|].
  exfalso. apply (f_equal (@length _)) in E. rewrite !app_length in E. cbn in E. lia.
Qed.

Lemma means_place : forall D p n q d q' d', means D p n q d -> means D p n q' d' -> q = q'.
Proof.
  intros D p n q d q' d' [A [H I]] [A' [H' I']].
  apply around_anti; [exact (I' q d A H)|exact (I q' d' A' H')].
Qed.

(* The table is what the fold makes. *)
Lemma declares_dD : forall O D, declares O D -> D = dD [] O.
Proof.
  intros O D H. induction H; rewrite ?dD_app; cbn [dD dD1]; try (rewrite <- IHdeclares).
  - reflexivity.
  - reflexivity.
  - reflexivity.
  - reflexivity.
  - rewrite (proj2 (vis_none _ _ _) H0). reflexivity.
  - destruct (visible_vis _ _ _ H0) as [q [x ->]]. reflexivity.
Qed.

Lemma dD_declares : forall O, declares O (dD [] O).
Proof.
  intros O. induction O as [|o O IH] using rev_ind; [constructor|].
  rewrite dD_app. cbn [dD]. destruct o; cbn [dD1].
  - constructor; exact IH.
  - constructor; exact IH.
  - destruct (vis (dD [] O) [InFile f] (d_name d)) as [x|] eqn:E.
    + apply dec_pair; [exact IH|exact (vis_visible _ _ _ _ E)].
    + apply dec_fun; [exact IH|exact (proj1 (vis_none _ _ _) E)].
  - constructor; exact IH.
Qed.

Lemma ev1_order : forall D L o, has_err (ev1 D L o) = false <-> in_order D o.
Proof.
  intros D L o. destruct o as [q w d|f [] d|f a d|q u n]; cbn [ev1 in_order].
  - rewrite <- (tab_none D q (d_name d)).
    destruct (tab_find (d_name d) (at_ D q)); [cbn; split; discriminate|].
    split; [reflexivity|]. intros _.
    destruct w; destruct (vis D (tl q) (d_name d)) as [[q' d']|]; try reflexivity.
    destruct (d_fn d'); reflexivity.
  - rewrite <- (tab_none D [InFile f] (d_name d)).
    destruct (tab_find (d_name d) (at_ D [InFile f])); [cbn; split; discriminate|].
    destruct (tab_find (d_name d) (at_ D [])); split; reflexivity.
  - rewrite <- vis_none, vis_file.
    destruct (tab_find (d_name d) (at_ D [InFile f])); [cbn; split; discriminate|].
    destruct (tab_find (d_name d) (at_ D [])); cbn; split; try reflexivity; discriminate.
  - cbn. tauto.
  - split.
    + intros E. destruct (vis D q n) as [x|] eqn:V; [exact (vis_visible _ _ _ _ V)|discriminate].
    + intros V. destruct (visible_vis _ _ _ V) as [q' [d' ->]]. reflexivity.
Qed.

Lemma evs_split : forall O e, In e (evs [] [] O) <->
  exists P R o, O = P ++ o :: R /\ In e (ev1 (dD [] P) (dL [] [] P) o).
Proof.
  intros O e. induction O as [|o O IH] using rev_ind.
  - split; [intros []|]. intros (P & R & o & E & _). destruct P; discriminate E.
  - rewrite evs_app. cbn [evs]. rewrite app_nil_r, in_app_iff, IH. split.
    + intros [(P & R & o' & -> & I)|I].
      * exists P, (R ++ [o]), o'. split; [rewrite <- app_assoc; reflexivity|exact I].
      * exists O, [], o. split; [reflexivity|exact I].
    + intros (P & R & o' & E & I).
      destruct R as [|r R] using rev_ind.
      * apply app_inj_tail in E. destruct E as [-> ->]. right. exact I.
      * clear IHR. left. exists P, R, o'. split; [|exact I].
        rewrite app_comm_cons, app_assoc in E. apply app_inj_tail in E. exact (proj1 E).
Qed.

Lemma well_named_evs : forall O, well_named O <-> has_err (evs [] [] O) = false.
Proof.
  intros O. split.
  - intros W. destruct (has_err (evs [] [] O)) eqn:E; [|reflexivity]. exfalso.
    unfold has_err in E. apply existsb_exists in E. destruct E as [e [I ER]].
    apply evs_split in I. destruct I as (P & R & o & -> & I).
    specialize (W P R o _ eq_refl (dD_declares P)).
    apply (ev1_order _ (dL [] [] P)) in W.
    assert (X : has_err (ev1 (dD [] P) (dL [] [] P) o) = true)
      by (unfold has_err; apply existsb_exists; exists e; split; assumption).
    congruence.
  - intros E P R o D -> H. apply declares_dD in H. subst D. apply (ev1_order _ (dL [] [] P)).
    destruct (has_err (ev1 (dD [] P) (dL [] [] P) o)) eqn:X; [|reflexivity].
    unfold has_err in X. apply existsb_exists in X. destruct X as [e [I ER]].
    assert (J : In e (evs [] [] (P ++ o :: R))) by (apply evs_split; eauto).
    assert (Y : has_err (evs [] [] (P ++ o :: R)) = true)
      by (unfold has_err; apply existsb_exists; exists e; split; assumption).
    congruence.
Qed.

(* Pairs of functions. *)
Lemma dD_from : forall O D q d, In (q, d) (dD D O) -> In (q, d) D \/ In d (flat_map decl_of O).
Proof.
  induction O as [|o O IH]; intros D q d I; cbn [dD flat_map] in *; [left; exact I|].
  destruct (IH _ _ _ I) as [J|J]; [|right; apply in_or_app; right; exact J].
  destruct o; cbn [dD1 decl_of] in *.
  - destruct J as [E|J]; [injection E as <- <-; right; left; reflexivity|left; exact J].
  - destruct J as [E|J]; [injection E as _ <-; right; left; reflexivity|left; exact J].
  - destruct (vis D [InFile f] (d_name d0)); [left; exact J|].
    destruct J as [E|J]; [injection E as _ <-; right; left; reflexivity|left; exact J].
  - left. exact J.
Qed.

Lemma link_in : forall P k v, In (k, v) (dL [] [] P) ->
  exists P1 P2 f1 a1 d1 q1 d', P = P1 ++ OFun f1 a1 d1 :: P2 /\
    vis (dD [] P1) [InFile f1] (d_name d1) = Some (q1, d') /\
    ((k = d_pos d1 /\ v = d_pos d') \/ (k = d_pos d' /\ v = d_pos d1)).
Proof.
  intros P k v. induction P as [|o P IH] using rev_ind; [intros []|].
  rewrite dL_app. cbn [dL]. intros I.
  assert (OLD : In (k, v) (dL [] [] P) -> exists P1 P2 f1 a1 d1 q1 d',
    P ++ [o] = P1 ++ OFun f1 a1 d1 :: P2 /\
    vis (dD [] P1) [InFile f1] (d_name d1) = Some (q1, d') /\
    ((k = d_pos d1 /\ v = d_pos d') \/ (k = d_pos d' /\ v = d_pos d1))).
  { intros J. destruct (IH J) as (P1 & P2 & f1 & a1 & d1 & q1 & d' & -> & V & C).
    exists P1, (P2 ++ [o]), f1, a1, d1, q1, d'.
    split; [rewrite <- app_assoc; reflexivity|]. split; assumption. }
  destruct o; cbn [dL1] in I; try exact (OLD I).
  destruct (vis (dD [] P) [InFile f] (d_name d)) as [[q1 d']|] eqn:V; [|exact (OLD I)].
  destruct I as [E|[E|I]]; [| |exact (OLD I)]; injection E as <- <-;
    exists P, [], f, a, d, q1, d'; (split; [reflexivity|]; split; [exact V|]); [left|right]; auto.
Qed.

Lemma places_prefix : forall P R, places_differ (P ++ R) -> places_differ P.
Proof.
  intros P R. unfold places_differ. rewrite flat_map_app, map_app.
  generalize (map d_pos (flat_map decl_of P)). intros l.
  induction l as [|x l IH]; cbn [app]; intros N; [constructor|].
  inversion N; subst. constructor; [|exact (IH H2)].
  intros I. apply H1. apply in_or_app. left. exact I.
Qed.

Lemma nodup_pos : forall l (a b : decl), NoDup (map d_pos l) -> In a l -> In b l ->
  d_pos a = d_pos b -> a = b.
Proof.
  induction l as [|x l IH]; intros a b N IA IB E; [destruct IA|]. cbn [map] in N.
  inversion N; subst. destruct IA as [<-|IA]; destruct IB as [<-|IB].
  - reflexivity.
  - exfalso. apply H1. rewrite E. apply in_map, IB.
  - exfalso. apply H1. rewrite <- E. apply in_map, IA.
  - exact (IH a b H2 IA IB E).
Qed.

(* The second half of a function declares nothing, so it is not found. *)
Lemma second_not_found : forall P P1 P2 f1 a1 d1 x q d, places_differ P ->
  P = P1 ++ OFun f1 a1 d1 :: P2 -> vis (dD [] P1) [InFile f1] (d_name d1) = Some x ->
  In (q, d) (dD [] P) -> d_pos d1 <> d_pos d.
Proof.
  intros P P1 P2 f1 a1 d1 x q d PD -> V I E.
  assert (J : In d (flat_map decl_of (P1 ++ P2))).
  { change (P1 ++ OFun f1 a1 d1 :: P2) with (P1 ++ [OFun f1 a1 d1] ++ P2) in I.
    rewrite !dD_app in I. cbn [dD dD1] in I. rewrite V, <- dD_app in I.
    destruct (dD_from _ _ _ _ I) as [[]|J]. exact J. }
  unfold places_differ in PD. rewrite flat_map_app in PD. cbn [flat_map decl_of app] in PD.
  rewrite map_app in PD. cbn [map] in PD. apply NoDup_remove_2 in PD. apply PD.
  rewrite E, <- map_app, <- flat_map_app. apply in_map. exact J.
Qed.

Lemma found_in : forall P q p n d, vis (dD [] P) p n = Some (q, d) ->
  In (q, d) (dD [] P) /\ d_name d = n.
Proof. intros P q p n d E. destruct (vis_some _ _ _ _ _ E) as [_ [H _]]. exact H. Qed.

(* What a half found by its name is linked to. *)
Lemma linked_once : forall O P R q d v, places_differ O -> O = P ++ R ->
  In (q, d) (dD [] P) -> In (d_pos d, v) (dL [] [] P) ->
  exists P1 P2 f1 a1 d1 q1, P = P1 ++ OFun f1 a1 d1 :: P2 /\
    vis (dD [] P1) [InFile f1] (d_name d1) = Some (q1, d) /\ v = d_pos d1.
Proof.
  intros O P R q d v PD -> I LK. apply places_prefix in PD.
  destruct (link_in _ _ _ LK) as (P1 & P2 & f1 & a1 & d1 & q1 & d' & E & V & [[K1 K2]|[K1 K2]]).
  - exfalso. exact (second_not_found _ _ _ _ _ _ _ _ _ PD E V I (eq_sym K1)).
  - assert (d = d').
    { apply (nodup_pos (flat_map decl_of P)); [exact PD| | |exact K1].
      - destruct (dD_from _ _ _ _ I) as [[]|J]. exact J.
      - destruct (found_in _ _ _ _ _ V) as [J _]. destruct (dD_from _ _ _ _ J) as [[]|J'].
        rewrite E, flat_map_app. apply in_or_app. left. exact J'. }
    subst d'. exists P1, P2, f1, a1, d1, q1. auto.
Qed.

Lemma assoc_none : forall k l, (forall v, ~ In (k, v) l) -> assoc k l = None.
Proof.
  intros k l H. unfold assoc. destruct (find (fun x => fst x =? k) l) as [[k' v]|] eqn:E; [|reflexivity].
  apply find_some in E. destruct E as [I K]. cbn in K. apply Z.eqb_eq in K. subst k'.
  destruct (H v I).
Qed.
Lemma assoc_some : forall k l v, assoc k l = Some v -> In (k, v) l.
Proof.
  intros k l v H. unfold assoc in H. destruct (find (fun x => fst x =? k) l) as [[k' v']|] eqn:E; [|discriminate].
  injection H as ->. apply find_some in E. destruct E as [I K]. cbn in K. apply Z.eqb_eq in K.
  subst k'. exact I.
Qed.
Lemma assoc_is : forall k l, assoc k l = None -> forall v, ~ In (k, v) l.
Proof.
  intros k l H v I. unfold assoc in H. destruct (find (fun x => fst x =? k) l) as [[k' v']|] eqn:E.
  - discriminate.
  - apply find_none with (x := (k, v)) in E; [|exact I]. cbn in E. rewrite Z.eqb_refl in E. discriminate.
Qed.

Lemma paired_pf : forall O, functions_paired O -> places_differ O -> pf [] [] O.
Proof.
  intros O FP PD.
  assert (G : forall P R, O = P ++ R -> pf (dD [] P) (dL [] [] P) R).
  { intros P R. revert P. induction R as [|o R IH]; intros P E; cbn [pf]; [exact Logic.I|].
    split.
    - destruct o; cbn [pf1]; try exact Logic.I.
      destruct (vis (dD [] P) [InFile f] (d_name d)) as [[q d']|] eqn:V; [|exact Logic.I].
      destruct (FP P R f a d _ E (dD_declares P) (vis_visible _ _ _ _ V)) as [H1 H2].
      destruct (H1 q d' (vis_some _ _ _ _ _ V)) as [a' [FN TH]].
      exists a'. split; [exact FN|]. split; [exact TH|]. apply assoc_none. intros v LK.
      destruct (found_in _ _ _ _ _ V) as [IN NM].
      destruct (linked_once O P (OFun f a d :: R) q d' v PD E IN LK)
        as (P1 & P2 & f1 & a1 & d1 & q1 & EP & V1 & _).
      destruct (found_in _ _ _ _ _ V1) as [_ NM1].
      apply (H2 P1 P2 f1 a1 d1 (dD [] P1) EP); [congruence|apply dD_declares|].
      rewrite <- NM, NM1. exact (vis_visible _ _ _ _ V1).
    - specialize (IH (P ++ [o])). rewrite dD_app, dL_app in IH. cbn [dD dL] in IH. apply IH.
      rewrite E, <- app_assoc. reflexivity. }
  exact (G [] O eq_refl).
Qed.

Section Program.
Variables (files : nat) (p : list (nat * item)).
Hypothesis FE : files_exist files p.
Hypothesis NB : natives_bodiless p.
Hypothesis FP : functions_paired (occurrences p).
Hypothesis PD : places_differ (occurrences p).

Lemma program_pf : pf [] [] (flat_map occ_names p).
Proof.
  pose proof (paired_pf _ FP PD) as H. unfold occurrences in H. apply pf_app in H. exact (proj1 H).
Qed.

Lemma accepts : accepted (resolve_names files p) <-> well_named (occurrences p).
Proof.
  rewrite well_named_evs.
  pose proof (resolve_res files p FE NB program_pf) as R. unfold accepted. split.
  - intros A. destruct (has_err (evs [] [] (occurrences p))); [|reflexivity].
    unfold has_err in R. apply existsb_exists in R. destruct R as [e [I ER]].
    rewrite (A e I) in ER. discriminate.
  - intros E. rewrite E in R. rewrite R. intros e I. unfold has_err in E.
    destruct (is_error e) eqn:X; [|reflexivity].
    assert (existsb is_error (evs [] [] (occurrences p)) = true)
      by (apply existsb_exists; exists e; split; assumption). congruence.
Qed.

Hypothesis WN : well_named (occurrences p).

Lemma reported : st_out (resolve_names files p) = evs [] [] (occurrences p).
Proof.
  pose proof (resolve_res files p FE NB program_pf) as R.
  rewrite (proj1 (well_named_evs _) WN) in R. exact R.
Qed.

Definition unique (D : table) : Prop :=
  forall q d d', In (q, d) D -> In (q, d') D -> d_name d = d_name d' -> d = d'.

Lemma well_named_unique : forall P R, occurrences p = P ++ R -> unique (dD [] P).
Proof.
  assert (ADD : forall D q x, unique D -> (forall d', ~ declared_at D q (d_name x) d') ->
                unique ((q, x) :: D)).
  { intros D q x U N q1 d d' [E|I] [E'|I'] NM.
    - congruence.
    - injection E as <- <-. destruct (N d'). split; [exact I'|congruence].
    - injection E' as <- <-. destruct (N d). split; [exact I|congruence].
    - exact (U q1 d d' I I' NM). }
  intros P. induction P as [|o P IH] using rev_ind; intros R E.
  - intros q d d' [].
  - rewrite <- app_assoc in E. cbn [app] in E.
    specialize (IH _ E). pose proof (WN _ _ _ _ E (dD_declares P)) as W.
    rewrite dD_app. cbn [dD]. destruct o as [q w d|f [] d|f a d|q u n]; cbn [dD1 in_order] in *.
    + apply ADD; assumption.
    + apply ADD; assumption.
    + apply ADD; [exact IH|]. intros d' H. apply W. exists [], d'.
      split; [exists [InFile f]; reflexivity|exact H].
    + destruct (vis (dD [] P) [InFile f] (d_name d)) eqn:V; [exact IH|].
      apply vis_none in V. apply ADD; [exact IH|]. intros d' H. apply V.
      exists (top_place f (f_static a)), d'. split; [|exact H].
      destruct (f_static a); [exists []; reflexivity|exists [InFile f]; reflexivity].
    + exact IH.
Qed.

Lemma means_vis : forall P R q n q' d, occurrences p = P ++ R -> means (dD [] P) q n q' d ->
  vis (dD [] P) q n = Some (q', d).
Proof.
  intros P R q n q' d E M. destruct (vis (dD [] P) q n) as [[q1 d1]|] eqn:V.
  - pose proof (vis_some _ _ _ _ _ V) as M1. pose proof (means_place _ _ _ _ _ _ _ M M1) as <-.
    destruct M as [_ [[I N] _]]. destruct M1 as [_ [[I1 N1] _]].
    rewrite (well_named_unique P R E _ _ _ I I1 ltac:(congruence)). reflexivity.
  - apply vis_none in V. destruct V. destruct M as [A [H _]]. exists q', d. split; assumption.
Qed.

Lemma canonical_taken : forall P R q n q' d c, occurrences p = P ++ R ->
  vis (dD [] P) q n = Some (q', d) ->
  (c = canonical (dL [] [] P) d <-> taken_for P d c).
Proof.
  intros P R q n q' d c E V. destruct (found_in _ _ _ _ _ V) as [IN NM].
  assert (HALF : forall d1, other_half P d d1 -> exists f1 a1 P1 P2, P = P1 ++ OFun f1 a1 d1 :: P2 /\
            exists q1, vis (dD [] P1) [InFile f1] (d_name d1) = Some (q1, d)).
  { intros d1 (P1 & P2 & f & a & D & q1 & EP & HD & M). apply declares_dD in HD. subst D.
    exists f, a, P1, P2. split; [exact EP|]. exists q1.
    apply (means_vis P1 (OFun f a d1 :: P2 ++ R)); [|exact M].
    rewrite E, EP, <- app_assoc. reflexivity. }
  (* only one other half *)
  assert (ONE : forall d1 d2, other_half P d d1 -> other_half P d d2 -> d1 = d2).
  { intros d1 d2 H1 H2.
    destruct (HALF _ H1) as (f1 & a1 & P1 & P2 & E1 & q1 & V1).
    destruct (HALF _ H2) as (f2 & a2 & P3 & P4 & E2 & q2 & V2).
    destruct (found_in _ _ _ _ _ V1) as [_ N1]. destruct (found_in _ _ _ _ _ V2) as [_ N2].
    assert (CMP : forall (X Y : list occ) (x y : occ) X' Y', X ++ x :: X' = Y ++ y :: Y' ->
              (X = Y /\ x = y) \/ (exists Z, Y = X ++ x :: Z) \/ (exists Z, X = Y ++ y :: Z)).
    { clear. induction X as [|x0 X IH]; intros [|y0 Y] x y X' Y' E; cbn in E.
      - injection E as -> _. left. auto.
      - injection E as -> _. right. left. exists Y. reflexivity.
      - injection E as -> _. right. right. exists X. reflexivity.
      - injection E as -> E. destruct (IH _ _ _ _ _ E) as [[-> ->]|[[Z ->]|[Z ->]]].
        + left. auto.
        + right. left. exists Z. reflexivity.
        + right. right. exists Z. reflexivity. }
    assert (NO : forall A A' fa aa da qa Bb B' fb ab db qb,
       P = A ++ OFun fa aa da :: A' -> vis (dD [] A) [InFile fa] (d_name da) = Some (qa, d) ->
       P = Bb ++ OFun fb ab db :: B' -> vis (dD [] Bb) [InFile fb] (d_name db) = Some (qb, d) ->
       forall Z, Bb = A ++ OFun fa aa da :: Z -> False).
    { intros A A' fa aa da qa Bb B' fb ab db qb EA VA EB VB Z EZ.
      destruct (found_in _ _ _ _ _ VA) as [_ NA]. destruct (found_in _ _ _ _ _ VB) as [_ NBb].
      assert (EO : occurrences p = Bb ++ OFun fb ab db :: B' ++ R)
        by (rewrite E, EB, <- app_assoc; reflexivity).
      destruct (FP _ _ _ _ _ _ EO (dD_declares Bb) (vis_visible _ _ _ _ VB)) as [_ H].
      apply (H A Z fa aa da (dD [] A) EZ); [congruence|apply dD_declares|].
      rewrite <- NBb, NA. exact (vis_visible _ _ _ _ VA). }
    assert (EQ : P1 ++ OFun f1 a1 d1 :: P2 = P3 ++ OFun f2 a2 d2 :: P4) by congruence.
    destruct (CMP _ _ _ _ _ _ EQ) as [[_ X]|[[Z X]|[Z X]]].
    - congruence.
    - destruct (NO _ _ _ _ _ _ _ _ _ _ _ _ E1 V1 E2 V2 _ X).
    - destruct (NO _ _ _ _ _ _ _ _ _ _ _ _ E2 V2 E1 V1 _ X). }
  assert (LINKED : forall v, In (d_pos d, v) (dL [] [] P) -> exists d1, other_half P d d1 /\ v = d_pos d1).
  { intros v LK. destruct (linked_once _ P R q' d v PD E IN LK)
      as (P1 & P2 & f1 & a1 & d1 & q1 & EP & V1 & ->).
    exists d1. split; [|reflexivity]. exists P1, P2, f1, a1, (dD [] P1), q1.
    split; [exact EP|]. split; [apply dD_declares|exact (vis_some _ _ _ _ _ V1)]. }
  assert (LINK : forall d1, other_half P d d1 -> In (d_pos d, d_pos d1) (dL [] [] P)).
  { intros d1 H. destruct (HALF _ H) as (f1 & a1 & P1 & P2 & E1 & q1 & V1).
    rewrite E1. change (P1 ++ OFun f1 a1 d1 :: P2) with (P1 ++ [OFun f1 a1 d1] ++ P2).
    rewrite !dL_app. cbn [dL dL1]. rewrite V1.
    generalize (dD (dD [] P1) [OFun f1 a1 d1]).
    assert (X : In (d_pos d, d_pos d1) (links_of d1 d (dL [] [] P1))) by (right; left; reflexivity).
    revert X. generalize (links_of d1 d (dL [] [] P1)). clear.
    induction P2 as [|o O IH]; intros l X D; cbn [dL]; [exact X|]. apply IH.
    destruct o; cbn [dL1]; try exact X. destruct (vis D [InFile f] (d_name d0)) as [[? ?]|]; [|exact X].
    right. right. exact X. }
  unfold canonical, taken_for, has_body.
  destruct (d_fn d) as [fa|] eqn:FN.
  - destruct (f_body fa) eqn:BD.
    + split; [intros ->; left; split; [exists fa; auto|reflexivity]|].
      intros [[_ X]|[[X _]|[X _]]]; [exact X| |]; exfalso; apply X; exists fa; auto.
    + assert (NBD : ~ exists a, Some fa = Some a /\ f_body a = true)
        by (intros [a [Ea Ba]]; congruence).
      destruct (assoc (d_pos d) (dL [] [] P)) as [v|] eqn:AS.
      * apply assoc_some in AS. destruct (LINKED v AS) as [d1 [H1 ->]]. split.
        -- intros ->. right. left. split; [exact NBD|]. exists d1. auto.
        -- intros [[X _]|[[_ [d2 [H2 ->]]]|[_ [X _]]]].
           ++ destruct (NBD X).
           ++ now rewrite (ONE _ _ H1 H2).
           ++ destruct (X d1 H1).
      * pose proof (assoc_is _ _ AS) as NI. split.
        -- intros ->. right. right. split; [exact NBD|]. split; [|reflexivity].
           intros d1 H. exact (NI _ (LINK _ H)).
        -- intros [[X _]|[[_ [d2 [H2 _]]]|[_ [_ X]]]].
           ++ destruct (NBD X).
           ++ destruct (NI _ (LINK _ H2)).
           ++ exact X.
  - (* not a function: nothing is its other half *)
    assert (NH : forall d1, ~ other_half P d d1).
    { intros d1 H. destruct (HALF _ H) as (f1 & a1 & P1 & P2 & E1 & q1 & V1).
      assert (EO : occurrences p = P1 ++ OFun f1 a1 d1 :: P2 ++ R)
        by (rewrite E, E1, <- app_assoc; reflexivity).
      destruct (FP _ _ _ _ _ _ EO (dD_declares P1) (vis_visible _ _ _ _ V1)) as [X _].
      destruct (X _ _ (vis_some _ _ _ _ _ V1)) as [a' [Y _]]. congruence. }
    assert (NBD : ~ exists a : fattr, None = Some a /\ f_body a = true)
      by (intros [a [Ea _]]; discriminate).
    split.
    + intros ->. right. right. auto.
    + intros [[X _]|[[_ [d2 [H2 _]]]|[_ [_ X]]]]; [destruct (NBD X)|destruct (NH _ H2)|exact X].
Qed.

(* Names mean the innermost declaration. *)
Lemma bound_innermost : forall u d c, In (Bound u d c) (st_out (resolve_names files p)) <->
  exists P R q n D q' dd, occurrences p = P ++ OUse q u n :: R /\ declares P D /\
    means D q n q' dd /\ d = d_pos dd /\ taken_for P dd c.
Proof.
  intros u d c. rewrite reported, evs_split. split.
  - intros (P & R & o & E & I). destruct o as [q w x|f s x|f a x|q u' n]; cbn [ev1] in I.
    + destruct (tab_find _ _); [destruct I as [X|[]]; discriminate X|].
      destruct w; [| |destruct I].
      * destruct (vis _ _ _) as [[? x']|]; [destruct I as [X|[]]; discriminate X|destruct I].
      * destruct (vis _ _ _) as [[? x']|]; [|destruct I].
        destruct (d_fn x'); [destruct I|destruct I as [X|[]]; discriminate X].
    + destruct (tab_find _ _); [destruct I as [X|[]]; discriminate X|].
      destruct (tab_find _ _); [|destruct I].
      destruct s; destruct I as [X|[]]; discriminate X.
    + destruct I.
    + destruct (vis (dD [] P) q n) as [[q' x]|] eqn:V; destruct I as [X|[]]; [|discriminate X].
      injection X as -> <- C. exists P, R, q, n, (dD [] P), q', x.
      split; [exact E|]. split; [apply dD_declares|]. split; [exact (vis_some _ _ _ _ _ V)|].
      split; [reflexivity|].
      apply (canonical_taken P (OUse q u n :: R) q n q' x c E V). symmetry. exact C.
  - intros (P & R & q & n & D & q' & dd & E & HD & M & -> & TF).
    apply declares_dD in HD. subst D.
    pose proof (means_vis _ _ _ _ _ _ E M) as V.
    exists P, R, (OUse q u n). split; [exact E|]. cbn [ev1]. rewrite V. left.
    apply (canonical_taken P _ q n q' dd c E V) in TF. rewrite TF. reflexivity.
Qed.

Lemma warned : forall x, In (Shadow x) (st_out (resolve_names files p)) <->
  exists P R o D, occurrences p = P ++ o :: R /\ declares P D /\ hides D o /\ x = place_of o.
Proof.
  intros x. rewrite reported, evs_split. split.
  - intros (P & R & o & E & I). exists P, R, o, (dD [] P). split; [exact E|].
    split; [apply dD_declares|]. destruct o as [q w d|f s d|f a d|q u' n]; cbn [ev1 hides place_of] in *.
    + destruct (tab_find (d_name d) (at_ (dD [] P) q)); [destruct I as [X|[]]; discriminate X|].
      destruct w; destruct (vis (dD [] P) (tl q) (d_name d)) as [[q' d']|] eqn:V; try (destruct I; fail).
      * destruct I as [X|[]]. injection X as <-. split; [exact (vis_visible _ _ _ _ V)|reflexivity].
      * destruct (d_fn d') eqn:FN; [destruct I|]. destruct I as [X|[]]. injection X as <-.
        split; [|reflexivity]. exists q', d'. split; [exact (vis_some _ _ _ _ _ V)|exact FN].
    + destruct (tab_find (d_name d) (at_ (dD [] P) [InFile f])); [destruct I as [X|[]]; discriminate X|].
      destruct (tab_find (d_name d) (at_ (dD [] P) [])) as [d'|] eqn:T; [|destruct I].
      destruct s; destruct I as [X|[]]; [|discriminate X]. injection X as <-.
      split; [|reflexivity]. exists d'. exact (tab_some _ _ _ _ T).
    + destruct I.
    + destruct (vis (dD [] P) q n) as [[? ?]|]; destruct I as [X|[]]; discriminate X.
  - intros (P & R & o & D & E & HD & H & ->). apply declares_dD in HD. subst D.
    exists P, R, o. split; [exact E|].
    pose proof (WN _ _ _ _ E (dD_declares P)) as W.
    destruct o as [q [] d|f [] d|f a d|q u' n]; cbn [ev1 hides place_of in_order] in *; try contradiction.
    + rewrite (proj2 (tab_none _ _ _) W). destruct (visible_vis _ _ _ H) as [q' [d' ->]]. left. reflexivity.
    + rewrite (proj2 (tab_none _ _ _) W). destruct H as [q' [d' [M FN]]].
      rewrite (means_vis _ _ _ _ _ _ E M), FN. left. reflexivity.
    + rewrite (proj2 (tab_none _ _ _) W).
      destruct (tab_find (d_name d) (at_ (dD [] P) [])) eqn:T; [left; reflexivity|].
      destruct H as [d' H]. destruct (proj1 (tab_none _ _ _) T d' H).
Qed.
End Program.
