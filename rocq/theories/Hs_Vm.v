(* The heap of the VM along the paths of a function, C45. *)
From Coq Require Import ZifyBool Lia.
From Verif Require Import Base Base_Proofs Rt_Model Rt_Spec Rt_Proofs Hist_Proofs Hs_Model Hs_Spec Hs_Proofs.
Ltac Zify.zify_post_hook ::= idtac.

Definition mk (p : Z * Z) : mark := Scope (fst p) (snd p).
Fixpoint chain (base : Z) (l : list (Z * Z)) (cur : Z) : Prop :=
  match l with [] => cur = base | p :: r => chain base r (snd p) end.
Lemma same_refl s : same_plugin s s. Proof. constructor; reflexivity. Qed.
Lemma same_trans s1 s2 s3 : same_plugin s1 s2 -> same_plugin s2 s3 -> same_plugin s1 s3.
Proof. intros [] []; constructor; congruence. Qed.

Record sim (s : rt) (g : list mark) (p : Z * list Z) (s' : rt) (g' : list mark) : Prop := {
  sim_hist : history s' g';
  sim_same : same_plugin s s';
  sim_hp : hp s' = fst p;
  sim_ex : exists l, map fst l = snd p /\ g' = map mk l ++ g /\ chain (hp_scope s) l (hp_scope s')
}.
Lemma fits B s g p s' g' o : sim s g p s' g' -> fine1 B o p -> B + mem_size s + 64 < two31 -> disciplined s' g' o.
Proof.
  intros [H1 H2 H3 (l & L1 & L2 & L3)] [F1 F2] Sz. destruct p as [h stk]. cbn [fst snd] in *.
  pose proof (history_HI _ _ H1) as HH. pose proof (HI_ok _ _ HH) as PO. pose proof (HI_lay _ _ HH) as LA.
  destruct o; cbn [disciplined]; try contradiction; auto.
  - cbn [track1 fst] in F1. destruct HH as (_ & _ & _ & C). apply coh_limits in C. destruct H2. destruct LA. destruct PO.
    unfold is_i32, two31 in *. destruct C. repeat split; try lia.
  - destruct l as [|[a b] l]; cbn [map] in *; [congruence|]. exists a, b, (map mk l ++ g). exact L2.
Qed.
Lemma sim_step B s g p s' g' o s'' : sim s g p s' g' -> fine1 B o p -> B + mem_size s + 64 < two31 ->
  perform o s' = Ok tt s'' -> sim s g (track1 o p) s'' (after s' g' o).
Proof.
  intros S0 F Sz P. pose proof (fits _ _ _ _ _ _ _ S0 F Sz) as D. destruct S0 as [H1 H2 H3 (l & L1 & L2 & L3)].
  destruct F as [F1 F2]. destruct p as [h stk]. cbn [fst snd] in *.
  assert (HS : history s'' (after s' g' o)) by (eapply h_step; eauto).
  destruct o; try contradiction.
  - pose proof (outcome s' g' (OHeap n) _ H1 D ltac:(discriminate) eq_refl) as E. rewrite E in P.
    replace (n <? 0) with false in P by lia. cbn [andb] in P. destruct (_ && _) in P; [discriminate|]. injection P as <-.
    constructor; auto; cbn [track1 fst snd].
    + apply (same_trans _ _ _ H2). constructor; reflexivity.
    + cbn. lia.
    + exists l. auto.
  - pose proof (outcome s' g' OScopeIn _ H1 D ltac:(discriminate) eq_refl) as E. rewrite E in P.
    destruct (sp s' <? hp s' + 4 + 64); [discriminate|]. injection P as <-.
    constructor; auto; cbn [track1 fst snd].
    + apply (same_trans _ _ _ H2). constructor; reflexivity.
    + cbn. lia.
    + exists ((hp s', hp_scope s') :: l). cbn [map fst after mk snd app chain]. rewrite L1, L2, H3. auto.
  - destruct l as [|[a b] l]; cbn [map] in *; [congruence|]. subst g'. cbn [app mk fst snd] in *.
    cbn [perform] in P. rewrite (scope_out _ _ _ _ H1) in P. injection P as <-. cbn [after tl] in *.
    destruct stk as [|x stk]; [discriminate|]. injection L1 as -> L1.
    constructor; auto; cbn [track1 fst snd].
    + apply (same_trans _ _ _ H2). constructor; reflexivity.
    + exists l. split; [exact L1|]. split; [reflexivity|]. cbn [chain snd] in L3. exact L3.
Qed.
Lemma succeeds B s g p s' g' o : sim s g p s' g' -> fine1 B o p -> B + mem_size s + 64 < two31 -> B + 64 <= sp s' ->
  exists s'', perform o s' = Ok tt s'' /\ sp s'' = sp s'.
Proof.
  intros S0 F Sz R. pose proof (fits _ _ _ _ _ _ _ S0 F Sz) as D. destruct S0 as [H1 H2 H3 (l & L1 & L2 & L3)].
  destruct F as [F1 F2]. destruct p as [h stk]. cbn [fst snd] in *. destruct o; try contradiction.
  - rewrite (outcome s' g' (OHeap n) _ H1 D ltac:(discriminate) eq_refl). cbn [track1 fst] in F1.
    replace (n <? 0) with false by lia. replace (sp s' <? hp s' + n + 64) with false by lia. cbn [andb]. rewrite andb_false_r. eauto.
  - rewrite (outcome s' g' OScopeIn _ H1 D ltac:(discriminate) eq_refl). cbn [track1 fst] in F1.
    replace (sp s' <? hp s' + 4 + 64) with false by lia. eauto.
  - destruct l as [|[a b] l]; cbn [map] in *; [congruence|]. subst g'. cbn [perform]. 
    rewrite (scope_out s' a b (map mk l ++ g) H1). eauto.
Qed.
Lemma along_sim B s g e s' g' : along s g e s' g' -> history s g -> fine B e (hp s, []) -> B + mem_size s + 64 < two31 ->
  sim s g (track e (hp s, [])) s' g'.
Proof.
  induction 1; intros H0' F Sz.
  - constructor; auto using same_refl. exists []. cbn. auto.
  - rewrite fine_app in F. destruct F as [F1 [F2 _]]. rewrite track_app. cbn [track].
    eapply sim_step; eauto.
  - destruct (IHalong H0' F Sz) as [Q1 Q2 Q3 (l & Q4 & Q5 & Q6)]. constructor; auto.
    + eapply same_trans; eauto.
    + congruence.
    + exists l. rewrite H3. auto.
Qed.

Definition fits_in (s : rt) (f : stmt) : Prop := hp s + need f + mem_size s + 64 < two31.
Lemma function_fine f e o h : path [] 0 (TStmt true f) e o -> tame true f = true ->
  fine (h + need f) e (h, []) /\ (o = Nrm -> track e (h, []) = (h, [])).
Proof.
  intros P T. destruct (path_bounded _ _ _ _ _ P T (le_n _) h [] (le_n _) (Forall_nil _)) as [B1 B2].
  split; [exact B1|]. intros ->. destruct B2 as (h' & Q1 & _ & Q3). rewrite Q1, (Q3 eq_refl). reflexivity.
Qed.
Lemma fine_peak B e : forall p, fst p <= B -> fine B e p -> fst (track e p) <= B.
Proof. induction e as [|o e IH]; intros p L F; [exact L|]. destruct F as [[F1 F2] F3]. cbn [track]. apply IH; assumption. Qed.

Lemma heap_bounded f evs o s g e rest s' g' :
  path [] 0 (TStmt true f) evs o -> tame true f = true -> history s g -> fits_in s f ->
  evs = e ++ rest -> along s g e s' g' ->
  hp s' <= hp s + need f /\
  (rest = [] -> o = Nrm -> hp s' = hp s /\ hp_scope s' = hp_scope s /\ g' = g) /\
  (forall x r, rest = x :: r -> hp s + need f + 64 <= sp s' -> exists s'', perform x s' = Ok tt s'').
Proof.
  intros P T H Sz -> A. destruct (function_fine _ _ _ (hp s) P T) as [F N]. unfold fits_in in Sz.
  rewrite fine_app in F. destruct F as [F1 F2].
  pose proof (along_sim _ _ _ _ _ _ A H F1 ltac:(lia)) as S0. split; [|split].
  - rewrite (sim_hp _ _ _ _ _ S0). apply fine_peak; auto. cbn [fst]. pose proof (need4 f). lia.
  - intros -> ->. rewrite app_nil_r in N. rewrite (N eq_refl) in S0. destruct S0 as [_ _ Q1 (l & Q2 & Q3 & Q4)].
    cbn [fst snd] in *. destruct l; [|discriminate]. cbn in Q3, Q4. auto.
  - intros x r -> R. destruct F2 as [F2 _]. destruct (succeeds _ _ _ _ _ _ _ S0 F2 ltac:(lia) R) as (s'' & E & _). eauto.
Qed.
Lemma straight_sim B s g : B + mem_size s + 64 < two31 -> forall e p s1 g1,
  sim s g p s1 g1 -> fine B e p -> B + 64 <= sp s1 ->
  exists s' g', perform_all e s1 = Ok tt s' /\ sim s g (track e p) s' g'.
Proof.
  intros Sz. induction e as [|o e IH]; intros p s1 g1 S0 F R.
  - exists s1, g1. auto.
  - destruct F as [F1 F2]. destruct (succeeds _ _ _ _ _ _ _ S0 F1 Sz R) as (s2 & E & SP).
    destruct (IH (track1 o p) s2 (after s1 g1 o)) as (s' & g' & Q1 & Q2); auto.
    + eapply sim_step; eauto.
    + lia.
    + exists s', g'. cbn [perform_all track]. unfold bind. rewrite E. auto.
Qed.
Lemma heap_straight f evs o s g : path [] 0 (TStmt true f) evs o -> tame true f = true -> history s g -> fits_in s f ->
  hp s + need f + 64 <= sp s ->
  exists s', perform_all evs s = Ok tt s' /\ hp s' <= hp s + need f /\ (o = Nrm -> hp s' = hp s /\ hp_scope s' = hp_scope s).
Proof.
  intros P T H Sz R. destruct (function_fine _ _ _ (hp s) P T) as [F N]. unfold fits_in in Sz.
  destruct (straight_sim (hp s + need f) s g ltac:(lia) evs (hp s, []) s g) as (s' & g' & Q1 & Q2); auto.
  - constructor; auto using same_refl. exists []. cbn. auto.
  - exists s'. split; [exact Q1|]. split.
    + rewrite (sim_hp _ _ _ _ _ Q2). apply fine_peak; auto. cbn [fst]. pose proof (need4 f). lia.
    + intros ->. rewrite (N eq_refl) in Q2. destruct Q2 as [_ _ Q3 (l & Q4 & Q5 & Q6)].
      cbn [fst snd] in *. destruct l; [|discriminate]. auto.
Qed.
