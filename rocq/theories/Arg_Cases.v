(* The theorems about arguments from what is known of a declaration, and some calls. *)
From Coq Require Import Lia.
From Verif Require Import Base Arg_Model Arg_Spec.
From Verif Require Arg_Proofs.

(* A method is declared with its object as first parameter. *)
Definition takes_this {E} (params : list param) (this : option E) : Prop :=
  this <> None -> exists p rest, params = p :: rest /\ p_varargs p = false.
(* ".name = _" is not written. *)
Definition no_dot_skip {E} (w : list (@written E)) : Prop := forall n, ~ In (DotSkip n) w.

Section W.
Context {E : Type}.
Variable params : list param.
Variable conv : nat -> E -> option E.
Variable this : option E.
Variable w : list (@written E).
Hypothesis Sh : shaped params.
Hypothesis Th : takes_this params this.
Hypothesis ND : no_dot_skip w.

Lemma accepted r : call params conv this w = Accepted r ->
  right params conv this w /\
  (forall i, (i < length r)%nat -> exists f, nth_error r i = Some (Some f) /\ receives params conv this w i f) /\
  (forall i p, nth_error params i = Some p -> p_varargs p = false -> (i < length r)%nat) /\
  (forall k s, meant_for params this w k s -> (s < length r)%nat).
Proof.
  destruct Sh as [fixed [rest [A [B [C D]]]]]. apply (Arg_Proofs.call_sound params conv fixed rest A B C D this w ND).
  intros N. destruct (Th N) as [p [l [F V]]]. destruct fixed as [|q fixed]; [|cbn; lia].
  destruct D as [-> | [v [-> W]]]; cbn in A; rewrite A in F; [discriminate|]. injection F as -> _. congruence.
Qed.
Lemma right_accepted : right params conv this w -> exists r, call params conv this w = Accepted r.
Proof.
  destruct Sh as [fixed [rest [A [B [C D]]]]]. apply (Arg_Proofs.call_complete params conv fixed rest A B C D this w ND).
  intros N. destruct (Th N) as [p [l [F V]]]. destruct fixed as [|q fixed]; [|cbn; lia].
  destruct D as [-> | [v [-> W]]]; cbn in A; rewrite A in F; [discriminate|]. injection F as -> _. congruence.
Qed.
End W.

(* f(a, b = .., c = .., any ...); expressions are numbers, and all may be passed but 13. *)
Definition f_params := [mkParam 0 false false; mkParam 1 false true; mkParam 2 false true; mkParam 9 true false].
Definition any_conv (d : nat) (e : Z) : option Z := if e =? 13 then None else Some (e + 100).
Lemma f_shaped : shaped f_params.
Proof.
  exists (firstn 3 f_params), (skipn 3 f_params). split; [reflexivity|]. split.
  - intros p [<- | [<- | [<- | []]]]; reflexivity.
  - split; [|right; eexists; split; reflexivity]. repeat constructor; cbn; intuition discriminate.
Qed.
(* f(1, .c = 3) and f(1, _, 3, 4, 5) *)
Lemma f_calls :
  call f_params any_conv None [Plain 1; Dot 2 3] = Accepted [Some (Given 101); Some (DefaultOf 1); Some (Given 103)] /\
  call f_params any_conv None [Plain 1; Skip; Plain 3; Plain 4; Plain 5] =
    Accepted [Some (Given 101); Some (DefaultOf 1); Some (Given 103); Some (Given 104); Some (Given 105)] /\
  call f_params any_conv (Some 7) [Dot 2 3; Dot 1 2] = Accepted [Some (Given 107); Some (Given 102); Some (Given 103)].
Proof. repeat split. Qed.
(* f(), f(1, .a = 2), f(.b = 1, 2), f(1, .x = 1), f(13), f(1, 2, 3, _) *)
Lemma f_refused :
  call f_params any_conv None [] = Refused 34 /\ call f_params any_conv None [Plain 1; Dot 0 2] = Refused 58 /\
  call f_params any_conv None [Dot 1 1; Plain 2] = Refused 44 /\ call f_params any_conv None [Plain 1; Dot 7 1] = Refused 17 /\
  call f_params any_conv None [Plain 13] = Refused 0 /\ call f_params any_conv None [Plain 1; Plain 2; Plain 3; Skip] = Refused 92.
Proof. repeat split. Qed.

(* g(a = .., b = .., c = .., d = ..) called as g(.c = 7, .d = _): the name d is forgotten and the default of d is found for
   the next position counted, which is b's. *)
Definition g_params := [mkParam 0 false true; mkParam 1 false true; mkParam 2 false true; mkParam 3 false true].
Lemma g_shaped : shaped g_params.
Proof.
  exists g_params, []. split; [reflexivity|]. split.
  - intros p [<- | [<- | [<- | [<- | []]]]]; reflexivity.
  - split; [|left; reflexivity]. repeat constructor; cbn; intuition discriminate.
Qed.
Lemma g_wrong : shaped g_params /\
  call g_params any_conv None [Dot 2 7; DotSkip 3] =
    Accepted [Some (DefaultOf 0); Some (DefaultOf 3); Some (Given 107); Some (DefaultOf 3)] /\
  ~ receives g_params any_conv None [Dot 2 7; DotSkip 3] 1 (DefaultOf 3).
Proof.
  split; [exact g_shaped|]. split; [reflexivity|]. intros [[e [e' [_ [_ H]]]]|[_ [H _]]]; discriminate.
Qed.
(* h(a, b = ..) called as h(.b = _, .a = 5): nothing is wrong with it, and it is refused. *)
Definition h_params := [mkParam 0 false false; mkParam 1 false true].
Lemma h_right : right h_params any_conv None [DotSkip 1; Dot 0 5].
Proof.
  assert (M0 : forall s, meant_for h_params None [DotSkip 1; @Dot Z 0 5] 0 s <-> s = 1%nat).
  { intros s. cbn. split.
    - intros [p [A [_ B]]]. destruct s as [|[|s]]; cbn in A.
      + injection A as <-. discriminate B.
      + reflexivity.
      + destruct s; discriminate A.
    - intros ->. exists (mkParam 1 false true). repeat split. }
  assert (M1 : forall s, meant_for h_params None [DotSkip 1; @Dot Z 0 5] 1 s <-> s = 0%nat).
  { intros s. cbn. split.
    - intros [p [A [_ B]]]. destruct s as [|[|s]]; cbn in A.
      + reflexivity.
      + injection A as <-. discriminate B.
      + destruct s; discriminate A.
    - intros ->. exists (mkParam 0 false false). repeat split. }
  assert (M2 : forall k s, meant_for h_params None [DotSkip 1; @Dot Z 0 5] (S (S k)) s -> False).
  { intros k s. unfold meant_for. cbn. destruct k; cbn; auto. }
  assert (MM : forall k s, meant_for h_params None [DotSkip 1; @Dot Z 0 5] k s -> (k = 0%nat /\ s = 1%nat) \/ (k = 1%nat /\ s = 0%nat)).
  { intros [|[|k]] s H; [left|right|destruct (M2 _ _ H)]; split; try reflexivity; [now apply M0 in H|now apply M1 in H]. }
  assert (WF : written_for h_params None [DotSkip 1; @Dot Z 0 5] 0 5).
  { right. exists 1%nat. split; [now apply M1|]. right. exists 0%nat. reflexivity. }
  constructor.
  - intros k k' a a' L A B D. destruct k' as [|[|k']]; [lia|injection B as <-; exact Logic.I|destruct k'; discriminate B].
  - intros k L. destruct k as [|[|k]]; [exists 1%nat; now apply M0|exists 0%nat; now apply M1|cbn in L; lia].
  - intros k k' s H H'. destruct (MM _ _ H) as [[-> ->]|[-> ->]]; destruct (MM _ _ H') as [[-> Q]|[-> Q]]; try reflexivity; discriminate Q.
  - intros k s _ H. congruence.
  - intros k s H. destruct (MM _ _ H) as [[-> ->]|[-> ->]]; split; try lia; eexists; (split; [reflexivity|right; reflexivity]).
  - intros [|[|k]] H; [discriminate H|discriminate H|destruct k; discriminate H].
  - intros s e [[_ H]|[k [H [A|[n A]]]]]; [discriminate H| |]; destruct (MM _ _ H) as [[-> ->]|[-> ->]]; try discriminate A.
    injection A as _ <-. cbn. discriminate.
  - intros s p A _ D. destruct s as [|[|s]]; [exists 5; exact WF|injection A as <-; discriminate D|destruct s; discriminate A].
Qed.
Lemma h_refused : shaped h_params /\ right h_params any_conv None [DotSkip 1; Dot 0 5] /\
  call h_params any_conv None [DotSkip 1; Dot 0 5] = Refused 34.
Proof.
  split; [|split; [exact h_right|reflexivity]]. exists h_params, []. split; [reflexivity|]. split.
  - intros p [<- | [<- | []]]; reflexivity.
  - split; [|left; reflexivity]. repeat constructor; cbn; intuition discriminate.
Qed.
