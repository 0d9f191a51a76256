(* The handshake between the watchdog and the code that handles its time-out. *)
From Verif Require Import Base Wd_Model Wd_Spec Wd_Proofs.
From Coq Require Import ZifyBool Lia.

Definition swapped (s : wd) : Prop := Forall (fun f => map swap_edge (now f) = at_link f) (funs s).
Definition live (s : wd) : bool := match m s with MJoin | MGone => false | _ => true end.
Definition phase (s : wd) : Prop :=
  terminate s = negb (live s) /\
  match m s with
  | MJoin | MGone => (timedout s = false -> restored s) /\
      match w s with WInit | WWait | WWoke | WDone => True | _ => False end
  | _ =>
    match w s with
    | WInit | WWait | WReadId | WReadTop _ | WFire | WWoke => timedout s = false /\ handling s = false /\ restored s
    | WPatch => timedout s = true /\ m s <> MClear /\ m s <> MNotify /\ restored s
    | WPark | WHeld =>
        match m s with
        | MClear => timedout s = true /\ restored s
        | MNotify => timedout s = false /\ restored s
        | _ => timedout s = true /\ swapped s
        end
    | WDone => False
    end
  end.

Lemma swap_swap e : swap_edge (swap_edge e) = e.
Proof. destruct e. reflexivity. Qed.
Lemma swap_swaps l : map swap_edge (map swap_edge l) = l.
Proof. rewrite map_map. rewrite <- (map_id l) at 2. apply map_ext, swap_swap. Qed.
Lemma swapped_all fs : Forall (fun f => now f = at_link f) fs ->
  Forall (fun f => map swap_edge (now f) = at_link f) (swap_all fs).
Proof.
  intros H. unfold swap_all. apply Forall_map. eapply Forall_impl; [|exact H].
  intros f E. cbn [now at_link]. rewrite swap_swaps. exact E.
Qed.
Lemma unswapped_all fs : Forall (fun f => map swap_edge (now f) = at_link f) fs ->
  Forall (fun f => now f = at_link f) (swap_all fs).
Proof. intros H. unfold swap_all. apply Forall_map. exact H. Qed.
Lemma forall_drop {A} (P : A -> Prop) i l : Forall P l -> Forall P (firstn i l ++ skipn (S i) l).
Proof.
  intros H. apply Forall_app. split.
  - revert i. induction H as [|x l Px H IH]; intros [|i]; cbn [firstn]; try apply Forall_nil. apply Forall_cons; auto.
  - revert i. induction H as [|x l Px H IH]; intros i; [destruct i; apply Forall_nil|].
    destruct i as [|i]; [exact H|]. apply (IH i).
Qed.
Lemma edge_same s i j f e o : restored s -> nth_error (funs s) i = Some f ->
  nth_error (now f) j = Some e -> nth_error (at_link f) j = Some o -> e = o.
Proof.
  intros R F E O0. unfold restored in R. rewrite Forall_forall in R. apply nth_error_In in F. rewrite (R f F) in E. congruence.
Qed.

Lemma phase_step e s s' : phase s -> step e s = Some s' ->
  match e with TSpurious => False | ELink _ => timedout s = false | _ => True end -> phase s'.
Proof.
  intros P S O0. unfold phase, live, handling, restored, swapped in P.
  destruct e; cbn [step] in S; unfold loop_or_leave, notify, mutex_free, env_free in S; crush;
    try contradiction;
    unfold phase, live, handling, restored, swapped in *;
    cbn [set_m set_w set_frame set_funs set_flag set_seen set_ignore set_terminate w m timedout funs terminate negb] in *;
    destruct (m s) eqn:M; cbn [negb] in *; try discriminate;
    destruct (w s) eqn:W; cbn [set_m set_w set_frame set_funs set_flag set_seen set_ignore set_terminate w m timedout funs terminate negb] in *; try discriminate;
    destruct P as [T P]; try rewrite T; try contradiction;
    try (split; [reflexivity|exact P]; fail); try (split; [exact T|exact P]; fail).
  all: try (exfalso; tauto); try (exfalso; destruct P as (_ & _ & P); discriminate P);
    try (exfalso; destruct P as (_ & P & _); discriminate P).
  all: repeat match goal with H : _ /\ _ |- _ => destruct H end.
  all: repeat match goal with
    | H : timedout ?x = ?b |- context [timedout ?x] => rewrite H
    | H : ?b = true, H' : ?b = false |- _ => congruence
    end.
  all: try (match goal with
    | F : nth_error (funs ?s) _ = Some ?f, E1 : nth_error (now ?f) _ = Some ?e1, E2 : nth_error (at_link ?f) _ = Some ?e2,
      R : Forall (fun g => now g = at_link g) (funs ?s) |- _ =>
        rewrite (edge_same s _ _ f e1 e2 R F E1 E2); rewrite Z.eqb_refl
    end).
  all: try (match goal with |- context [if ?c then MRun else MUnpatch] => destruct c end).
  all: try (split; [reflexivity|]).
  all: repeat match goal with |- _ /\ _ => split end; try assumption; try discriminate; try reflexivity; try congruence;
    try (apply swapped_all; assumption); try (apply unswapped_all; assumption); try (apply forall_drop; assumption);
    try (apply Forall_app; split; [assumption|apply Forall_cons; [reflexivity|apply Forall_nil]]).
  all: try (intros _; assumption); try (exact Logic.I).
  all: match goal with H : w ?x = _ |- context [w ?x] => rewrite H; exact Logic.I end.
Qed.
Lemma phase_run es : forall s s', phase s -> orderly es s -> run es s = Some s' -> phase s'.
Proof.
  induction es as [|e es IH]; intros s s' P O0 R; [injection R as <-; exact P|].
  cbn [run orderly] in R, O0. destruct (step e s) as [s1|] eqn:S; [|discriminate]. destruct O0 as [O1 O2].
  apply (IH s1 s'); [eapply phase_step; eauto|exact O2|exact R].
Qed.
Lemma phase_start id d : phase (start id d).
Proof. split; [reflexivity|]. split; [reflexivity|]. split; [reflexivity|]. apply Forall_nil. Qed.
Lemma phase_reach es id d s : orderly es (start id d) -> run es (start id d) = Some s -> phase s.
Proof. intros O0 R. eapply phase_run; [apply phase_start|exact O0|exact R]. Qed.

(* No time-out pending: every loop edge is as it was linked. *)
Lemma phase_restored s : phase s -> timedout s = false -> restored s.
Proof.
  intros [_ P] T. destruct (m s); try (destruct P as [P _]; exact (P T)); destruct (w s); try contradiction;
    destruct P as [P1 P2]; try congruence; try (destruct P2 as (_ & P2); exact P2); try exact P2;
    destruct P2 as (_ & _ & P2); exact P2.
Qed.
(* The watchdog waits while the time-out is handled; the notification reaches it. *)
Lemma phase_notify s s' : phase s -> step ENotify s = Some s' ->
  w s' = WWoke /\ m s' = MRun /\ timedout s' = false /\ restored s'.
Proof.
  intros [_ P] S. cbn [step] in S. unfold handling in P. destruct (m s); try discriminate. unfold mutex_free in S.
  destruct (w s) eqn:W; try discriminate; try contradiction; try (destruct P as (_ & P & _); discriminate P).
  injection S as <-. unfold notify. rewrite W. destruct P as [T P]. auto.
Qed.
(* The watchdog fires only when no earlier time-out is pending or being handled. *)
Lemma phase_fire s s' : phase s -> m s <> MJoin -> m s <> MGone -> step TFire s = Some s' ->
  timedout s = false /\ handling s = false /\ restored s.
Proof.
  intros [_ P] M1 M2 S. cbn [step] in S. destruct (w s) eqn:W; try discriminate.
  destruct (m s); try exact P; contradiction.
Qed.
(* Without a further time-out nothing reports one. *)
Definition calm (s : wd) : Prop := phase s /\ timedout s = false /\ handling s = false.
Lemma calm_step e s s' : calm s -> step e s = Some s' -> fires e = false ->
  match e with TSpurious => False | ELink _ => timedout s = false | _ => True end -> calm s'.
Proof.
  intros (P & T & H) S N O0. pose proof (phase_restored s P T) as R.
  split; [eapply phase_step; eauto|].
  destruct e; cbn [step fires] in S, N; unfold loop_or_leave, notify in S; crush; try discriminate;
    unfold handling in *;
    cbn [set_m set_w set_frame set_funs set_flag set_seen set_ignore set_terminate w m timedout funs terminate] in *;
    try (split; [first [assumption|reflexivity]|first [assumption|reflexivity]]; fail); try discriminate.
  all: try (match goal with M : m ?x = _, K : match m ?x with _ => _ end = false |- _ => rewrite M in K; try discriminate K end).
  - rewrite T. auto.
  - rewrite (edge_same s _ _ f e e0 R) by eassumption. rewrite Z.eqb_refl. auto.
  - destruct (w s); auto.
Qed.
Lemma calm_run es : forall s s', calm s -> orderly es s -> existsb fires es = false -> run es s = Some s' -> calm s'.
Proof.
  induction es as [|e es IH]; intros s s' C O0 N R; [injection R as <-; exact C|].
  cbn [run orderly existsb] in R, O0, N. destruct (step e s) as [s1|] eqn:S; [|discriminate]. destruct O0 as [O1 O2].
  apply orb_false_iff in N as [N1 N2].
  apply (IH s1 s'); [eapply calm_step; eauto|exact O2|exact N2|exact R].
Qed.

(* Handling never gets stuck: by their own steps the two threads finish it. *)
Lemma phase_progress s : phase s -> handling s = true ->
  exists es s', forallb own es = true /\ run es s = Some s' /\ m s' = MRun /\ timedout s' = false /\ restored s'.
Proof.
  intros P H. assert (P0 := P). destruct P as [_ P]. unfold handling in *.
  assert (Go : forall es s', forallb own es = true -> orderly es s -> run es s = Some s' -> m s' = MRun -> timedout s' = false ->
    exists es s', forallb own es = true /\ run es s = Some s' /\ m s' = MRun /\ timedout s' = false /\ restored s').
  { intros es s' A O0 R M T. exists es, s'. repeat (split; [assumption|]). apply phase_restored; [|exact T].
    eapply phase_run; [exact P0|exact O0|exact R]. }
  destruct s as [fi d fs t ig te la se ww mm]. cbn [m w timedout] in *.
  destruct mm; try discriminate; destruct ww; try contradiction; try (destruct P as (_ & P & _); discriminate P);
    try (destruct P as (_ & X & _); exfalso; apply X; reflexivity); try (destruct P as (_ & _ & X & _); exfalso; apply X; reflexivity).
  all: destruct P as [-> P].
  - eapply (Go [TPatch; TPark; EUnpatch; EClear; ENotify]); try reflexivity; repeat split.
  - eapply (Go [TPark; EUnpatch; EClear; ENotify]); try reflexivity; repeat split.
  - eapply (Go [EUnpatch; EClear; ENotify]); try reflexivity; repeat split.
  - eapply (Go [TPark; EClear; ENotify]); try reflexivity; repeat split.
  - eapply (Go [EClear; ENotify]); try reflexivity; repeat split.
  - eapply (Go [TPark; ENotify]); try reflexivity; repeat split.
  - eapply (Go [ENotify]); try reflexivity; repeat split.
Qed.
(* Shutdown never gets stuck either. *)
Lemma phase_shutdown s : phase s -> m s = MJoin ->
  exists es s', forallb own es = true /\ run (es ++ [EJoin]) s = Some s' /\ m s' = MGone /\ w s' = WDone.
Proof.
  intros [T P] M. unfold live in T. rewrite M in *. destruct P as [_ P].
  destruct s as [fi d fs t ig te la se ww mm]. cbn [m w timedout terminate negb] in *. subst te mm.
  destruct ww; try contradiction.
  - exists [TStart]. eexists. split; [reflexivity|]. split; [reflexivity|]. split; reflexivity.
  - exists [TWake]. eexists. split; [reflexivity|]. split; [reflexivity|]. split; reflexivity.
  - exists [TResume]. eexists. split; [reflexivity|]. split; [reflexivity|]. split; reflexivity.
  - exists []. eexists. split; [reflexivity|]. split; [reflexivity|]. split; reflexivity.
Qed.
Lemma handled_normal id d es s0 s fs s' : orderly es (start id d) -> run es (start id d) = Some s0 ->
  step ENotify s0 = Some s -> orderly fs s -> existsb fires fs = false -> run fs s = Some s' ->
  handling s' = false /\ timedout s' = false /\ restored s'.
Proof.
  intros O0 R N O1 F R'. pose proof (phase_reach es id d s0 O0 R) as P.
  destruct (phase_notify s0 s P N) as (_ & M & T & _).
  assert (C : calm s).
  { split; [eapply phase_step; [exact P|exact N|exact Logic.I]|]. split; [exact T|]. unfold handling. rewrite M. reflexivity. }
  destruct (calm_run fs s s' C O1 F R') as (P' & T' & H'). split; [exact H'|]. split; [exact T'|].
  apply phase_restored; assumption.
Qed.
