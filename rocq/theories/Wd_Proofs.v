From Verif Require Import Base Wd_Model Wd_Spec.
From Coq Require Import ZifyBool Lia.

Lemma run_app es1 : forall es2 s,
  run (es1 ++ es2) s = match run es1 s with Some s' => run es2 s' | None => None end.
Proof.
  induction es1 as [|e r IH]; intros es2 s; [reflexivity|]. cbn [app run].
  destruct (step e s) as [s'|]; [apply IH|reflexivity].
Qed.
Lemma open_app a : forall b d, open_after (a ++ b) d = open_after b (open_after a d).
Proof. induction a as [|e a IH]; intros b d; [reflexivity|]. destruct e; cbn [app open_after]; apply IH. Qed.
Lemma outer_app a : forall b d, outermost (a ++ b) d = (outermost a d + outermost b (open_after a d))%nat.
Proof.
  induction a as [|e a IH]; intros b d; [reflexivity|].
  destruct e; cbn [app open_after outermost]; rewrite ?IH; lia.
Qed.
Lemma quiet_app a b : quiet (a ++ b) <-> quiet a /\ quiet b.
Proof. unfold quiet. rewrite forallb_app, andb_true_iff. reflexivity. Qed.
Lemma quiet_one e : acts e = false -> quiet [e].
Proof. intros H. unfold quiet. cbn [forallb]. rewrite H. reflexivity. Qed.
Lemma run_snoc tr e s s' : run (tr ++ [e]) s = Some s' -> exists s1, run tr s = Some s1 /\ step e s1 = Some s'.
Proof.
  rewrite run_app. destruct (run tr s) as [s1|]; [|discriminate]. cbn [run].
  destruct (step e s1) as [s2|] eqn:E; [|discriminate]. intros H. exists s1. split; [reflexivity|]. rewrite E. exact H.
Qed.

Ltac crush :=
  repeat match goal with
  | H : None = Some _ |- _ => discriminate H
  | H : Some _ = Some _ |- _ => injection H as <-
  | H : (if ?c then _ else _) = Some _ |- _ => destruct c eqn:?
  | H : match ?c with _ => _ end = Some _ |- _ => destruct c eqn:?
  end.

Lemma notify_cases s : notify s = s \/ w s = WHeld /\ notify s = set_w WWoke s.
Proof. unfold notify. destruct (w s); auto. Qed.

Section Hist.
Variables (id0 : Z) (d0 : nat).
Local Notation word_at tr := (word (id0 + Z.of_nat (outermost tr d0))).
Definition counted (tr : list event) (s : wd) : Prop :=
  depth s = open_after tr d0 /\ frame_id s = word_at tr.
(* What [second] remembers. *)
Definition first_check (p m1 : list event) (s : wd) : Prop :=
  quiet m1 /\ (open_after (p ++ TReadId :: m1) d0 > 0)%nat /\ last s = word_at p.
Definition remembers (tr : list event) (s : wd) : Prop :=
  match w s with
  | WWait | WReadId => second s = true -> exists p m1 p2, tr = p ++ TReadId :: m1 ++ TReadTop :: p2 /\ quiet p2 /\ first_check p m1 s
  | WReadTop id => exists q m2, tr = q ++ TReadId :: m2 /\ quiet m2 /\ id = word_at q /\
      (second s = true -> exists p m1 p2, q = p ++ TReadId :: m1 ++ TReadTop :: p2 /\ quiet p2 /\ first_check p m1 s)
  | WInit => second s = false
  | _ => True
  end.
Lemma word_word a : word (word a + 1) = word (a + 1).
Proof. unfold word. rewrite Zplus_mod_idemp_l. reflexivity. Qed.
Lemma counted_step tr e s s' : counted tr s -> step e s = Some s' -> counted (tr ++ [e]) s'.
Proof.
  intros [D F] S. unfold counted. rewrite open_app, outer_app. rewrite <- D.
  destruct e; cbn [step] in S; cbn [open_after outermost]; unfold loop_or_leave, notify in S; crush;
    cbn [set_m set_w set_frame set_funs set_flag set_seen set_ignore set_terminate depth frame_id pred w] in *;
    try (destruct (w s); cbn [set_w set_terminate depth frame_id]); rewrite ?Nat.add_0_r;
    (split; [first [congruence|lia]|]); rewrite ?F; try reflexivity.
  all: destruct (depth s =? 0)%nat; [rewrite word_word; f_equal; lia|rewrite Nat.add_0_r; reflexivity].
Qed.
Lemma remembers_step tr e s s' : counted tr s -> remembers tr s -> step e s = Some s' -> remembers (tr ++ [e]) s'.
Proof.
  intros [D F] R S. unfold remembers in *.
  assert (Main : acts e = false -> w s' = w s -> second s' = second s -> last s' = last s ->
    match w s' with
    | WWait | WReadId => second s' = true -> exists p m1 p2, tr ++ [e] = p ++ TReadId :: m1 ++ TReadTop :: p2 /\ quiet p2 /\ first_check p m1 s'
    | WReadTop id => exists q m2, tr ++ [e] = q ++ TReadId :: m2 /\ quiet m2 /\ id = word_at q /\
        (second s' = true -> exists p m1 p2, q = p ++ TReadId :: m1 ++ TReadTop :: p2 /\ quiet p2 /\ first_check p m1 s')
    | WInit => second s' = false
    | _ => True
    end).
  { intros A -> -> L. unfold first_check. rewrite L. destruct (w s); try exact R; try exact Logic.I.
    - intros T. destruct (R T) as (p & m1 & p2 & -> & Q & K). exists p, m1, (p2 ++ [e]).
      split; [rewrite <- !app_assoc; cbn [app]; rewrite <- !app_assoc; reflexivity|].
      split; [apply quiet_app; split; [exact Q|apply quiet_one, A]|exact K].
    - intros T. destruct (R T) as (p & m1 & p2 & -> & Q & K). exists p, m1, (p2 ++ [e]).
      split; [rewrite <- !app_assoc; cbn [app]; rewrite <- !app_assoc; reflexivity|].
      split; [apply quiet_app; split; [exact Q|apply quiet_one, A]|exact K].
    - destruct R as (q & m2 & -> & Q & I0 & K). exists q, (m2 ++ [e]).
      split; [rewrite <- app_assoc; reflexivity|].
      split; [apply quiet_app; split; [exact Q|apply quiet_one, A]|]. split; [exact I0|exact K]. }
  assert (More : acts e = false -> second s' = second s -> last s' = last s ->
    (w s = WWait \/ w s = WReadId) -> (second s' = true ->
    exists p m1 p2, tr ++ [e] = p ++ TReadId :: m1 ++ TReadTop :: p2 /\ quiet p2 /\ first_check p m1 s')).
  { intros A E L W T. unfold first_check. rewrite L. rewrite E in T.
    assert (R' : second s = true -> exists p m1 p2, tr = p ++ TReadId :: m1 ++ TReadTop :: p2 /\ quiet p2 /\ first_check p m1 s)
      by (destruct W as [W|W]; rewrite W in R; exact R).
    destruct (R' T) as (p & m1 & p2 & -> & Q & K). exists p, m1, (p2 ++ [e]).
    split; [rewrite <- !app_assoc; cbn [app]; rewrite <- !app_assoc; reflexivity|].
    split; [apply quiet_app; split; [exact Q|apply quiet_one, A]|exact K]. }
  destruct e; cbn [step] in S; unfold loop_or_leave in S; crush;
    cbn [set_m set_w set_frame set_funs set_flag set_seen set_ignore set_terminate w second last] in *;
    try (apply Main; reflexivity).
  - (* TStart *) destruct (terminate s); [exact Logic.I|]. congruence.
  - (* TTimeout *) destruct (terminate s); [exact Logic.I|]. apply More; auto.
  - (* TWake *) destruct (terminate s); [exact Logic.I|]. apply More; auto.
  - (* TReadId *) exists tr, []. split; [reflexivity|]. split; [reflexivity|]. split; [exact F|].
    exact R.
  - (* TReadTop, other *) destruct (terminate s); [exact Logic.I|]. discriminate.
  - (* TReadTop, first *) destruct (terminate s); [exact Logic.I|]. intros _.
    destruct R as (q & m2 & -> & Q & I0 & _). exists q, m2, [].
    split; [rewrite <- app_assoc; reflexivity|]. split; [reflexivity|]. split; [exact Q|].
    split.
    + rewrite <- D. clear - Heqb. lia.
    + cbn [last set_seen set_w]. rewrite <- I0. clear - Heqb. lia.
  - exact Logic.I.
  - exact Logic.I.
  - exact Logic.I.
  - exact Logic.I.
  - exact Logic.I.
  - (* TResume *) destruct (terminate s); [exact Logic.I|]. discriminate.
  - (* ENotify *) destruct (notify_cases s) as [E | [W E]]; rewrite E in *; [apply Main; reflexivity|exact Logic.I].
  - (* EShutdown *)
    destruct (notify_cases (set_terminate s)) as [E | [W E]]; rewrite E in *; [apply Main; reflexivity|exact Logic.I].
  - (* EJoin *) match goal with H : w s = WDone |- _ => rewrite H; exact Logic.I end.
Qed.
Definition hist tr s := counted tr s /\ remembers tr s.
Lemma hist_run tr : forall s, run tr (start (word id0) d0) = Some s -> hist tr s.
Proof.
  induction tr as [|e tr IH] using rev_ind; intros s R.
  - injection R as <-. repeat split. cbn [start frame_id outermost]. f_equal. lia.
  - apply run_snoc in R as (s1 & R1 & S). destruct (IH _ R1) as [C M].
    split; [eapply counted_step; eauto|eapply remembers_step; eauto].
Qed.

Lemma word_inj n1 n2 : (n1 <= n2)%nat -> Z.of_nat n2 < 2 ^ 64 ->
  word (id0 + Z.of_nat n1) = word (id0 + Z.of_nat n2) -> n1 = n2.
Proof.
  unfold word. intros L B E.
  assert (K : (Z.of_nat n2 - Z.of_nat n1) mod 2 ^ 64 = 0).
  { replace (Z.of_nat n2 - Z.of_nat n1) with (id0 + Z.of_nat n2 - (id0 + Z.of_nat n1)) by lia.
    rewrite Zminus_mod, E, Z.sub_diag. reflexivity. }
  rewrite Z.mod_small in K by lia. lia.
Qed.

Definition fresh (s : wd) : Prop := depth s = 0%nat -> m s <> MEntering.
Lemma fresh_step e s s' : fresh s -> step e s = Some s' -> outermost [e] (depth s) = 0%nat ->
  fresh s' /\ (depth s = 0%nat -> depth s' = 0%nat).
Proof.
  unfold fresh. intros A S Z0. destruct e; cbn [step] in S; unfold loop_or_leave in S; crush;
    cbn [set_m set_w set_frame set_funs set_flag set_seen set_ignore set_terminate depth m] in *;
    try (split; [exact A|auto]; fail); try (split; [discriminate|auto]; fail);
    try (split; [intros _; congruence|auto]; fail).
  - split; [|auto]. intros E. rewrite E in Z0. discriminate.
  - split; [discriminate|]. intros E. destruct (A E eq_refl).
  - split; [intros _; rewrite Heqm; discriminate|discriminate].
  - split; [|auto]. destruct (timedout s); discriminate.
  - split; [|auto]. destruct (fst e =? fst e0); discriminate.
  - split; [discriminate|]. destruct (notify_cases s) as [E | [W E]]; rewrite E; auto.
  - split; [discriminate|]. destruct (notify_cases (set_terminate s)) as [E | [W E]]; rewrite E; auto.
Qed.
Lemma open_step e s s' : step e s = Some s' -> depth s' = open_after [e] (depth s).
Proof.
  intros S. destruct e; cbn [step] in S; unfold loop_or_leave, notify in S; crush;
    cbn [set_m set_w set_frame set_funs set_flag set_seen set_ignore set_terminate depth w open_after pred] in *;
    try reflexivity; destruct (w s); reflexivity.
Qed.
Lemma open_run es : forall s s', run es s = Some s' -> depth s' = open_after es (depth s).
Proof.
  induction es as [|e es IH]; intros s s' R; [injection R as <-; reflexivity|].
  cbn [run] in R. destruct (step e s) as [s1|] eqn:S; [|discriminate].
  rewrite (IH _ _ R), (open_step _ _ _ S). symmetry. exact (open_app [e] es (depth s)).
Qed.
Lemma fresh_run es : forall s s', fresh s -> run es s = Some s' -> outermost es (depth s) = 0%nat ->
  fresh s' /\ (depth s = 0%nat -> depth s' = 0%nat).
Proof.
  induction es as [|e es IH]; intros s s' A R Z0; [injection R as <-; auto|].
  cbn [run] in R. destruct (step e s) as [s1|] eqn:S; [|discriminate].
  rewrite (outer_app [e] es) in Z0. rewrite <- (open_step _ _ _ S) in Z0.
  destruct (fresh_step e s s1 A S) as [A1 D1]; [lia|].
  destruct (IH s1 s' A1 R) as [A2 D2]; [lia|]. auto.
Qed.
(* No outermost invocation is entered in [es], one is open at its end and the beginning: one is open all through. *)
Lemma open_all before es s : run (before ++ es) (start (word id0) d0) = Some s ->
  outermost (before ++ es) d0 = outermost before d0 ->
  (open_after before d0 > 0)%nat -> (open_after (before ++ es) d0 > 0)%nat -> runs_through before es d0.
Proof.
  intros R Z0 O1 O2 q r ->. rewrite run_app in R.
  destruct (run before (start (word id0) d0)) as [s1|] eqn:R1; [|discriminate].
  rewrite run_app in R. destruct (run q s1) as [s2|] eqn:R2; [|discriminate].
  pose proof (open_run _ _ _ R1) as D1. pose proof (open_run _ _ _ R2) as D2. pose proof (open_run _ _ _ R) as D3.
  cbn [start depth] in D1. rewrite !outer_app, <- D1 in Z0. rewrite <- D2 in Z0.
  rewrite !open_app, <- D1 in O2. rewrite <- D2, <- D3 in O2. rewrite open_app, <- D1, <- D2.
  assert (A1 : fresh s1) by (intros K; lia).
  destruct (fresh_run q s1 s2 A1 R2) as [A2 _]; [lia|].
  destruct (fresh_run r s2 s A2 R) as [_ K]; [lia|]. lia.
Qed.

Lemma fire_same tr s s' : run tr (start (word id0) d0) = Some s -> Z.of_nat (outermost tr d0) < 2 ^ 64 ->
  step TReadTop s = Some s' -> w s' = WFire ->
  exists p m1 p2 m2, tr = p ++ TReadId :: m1 ++ TReadTop :: p2 ++ TReadId :: m2 /\ quiet m1 /\ quiet p2 /\ quiet m2 /\
    outermost (p ++ TReadId :: m1 ++ TReadTop :: p2) d0 = outermost p d0 /\
    (open_after (p ++ TReadId :: m1) d0 > 0)%nat /\ (open_after tr d0 > 0)%nat /\
    (outermost tr d0 = outermost p d0 -> runs_through (p ++ TReadId :: m1) (TReadTop :: p2 ++ TReadId :: m2) d0).
Proof.
  intros R B S W. destruct (hist_run _ _ R) as [[D F] M]. unfold remembers in M.
  cbn [step] in S. destruct (w s) as [| | |id| | | | | |] eqn:E; try discriminate.
  destruct (negb (id =? last s) || (depth s =? 0)%nat || ignoring s) eqn:C.
  { injection S as <-. unfold loop_or_leave in W. cbn [set_w w set_seen terminate] in W. destruct (terminate s); discriminate. }
  destruct (second s) eqn:C2; cbn [negb] in S.
  2: { injection S as <-. unfold loop_or_leave in W. cbn [set_w w set_seen terminate] in W. destruct (terminate s); discriminate. }
  destruct M as (q & m2 & T & Q2 & I0 & K). destruct (K eq_refl) as (p & m1 & p2 & -> & Qp & Q1 & O1 & L).
  assert (O2 : (depth s > 0)%nat) by (clear - C; lia). rewrite D in O2.
  assert (N : outermost p d0 = outermost (p ++ TReadId :: m1 ++ TReadTop :: p2) d0).
  { apply word_inj.
    - rewrite outer_app. lia.
    - rewrite T in B. rewrite outer_app in B. lia.
    - rewrite <- I0, <- L. clear - C. lia. }
  exists p, m1, p2, m2. subst tr.
  split; [rewrite <- !app_assoc; cbn [app]; rewrite <- app_assoc; reflexivity|].
  split; [exact Q1|]. split; [exact Qp|]. split; [exact Q2|]. split; [symmetry; exact N|]. split; [exact O1|].
  split; [exact O2|]. intros N2.
  assert (X : (p ++ TReadId :: m1 ++ TReadTop :: p2) ++ TReadId :: m2 = (p ++ TReadId :: m1) ++ TReadTop :: p2 ++ TReadId :: m2)
    by (rewrite <- !app_assoc; cbn [app]; rewrite <- !app_assoc; reflexivity).
  rewrite X in *. eapply open_all; eauto. rewrite N2.
  clear - N. rewrite app_comm_cons, app_assoc, (outer_app (p ++ TReadId :: m1)) in N. rewrite outer_app in *. lia.
Qed.
End Hist.
