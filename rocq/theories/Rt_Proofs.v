From Verif Require Import Base Base_Proofs Rt_Model Rt_Spec.
From Coq Require Import ZifyBool.
Ltac Zify.zify_post_hook ::= Z.div_mod_to_equations.

(* Weakest-precondition reading of the monad. *)
Definition wp {S A} (m : S -> res S A) (Q : A -> S -> Prop) (E : err -> S -> Prop)
           (U : ub -> Prop) (s : S) : Prop :=
  match m s with Ok a s' => Q a s' | Fail e s' => E e s' | UB u => U u end.

Lemma wp_bind S A B (m : S -> res S A) (k : A -> S -> res S B) Q E U s :
  wp (bind m k) Q E U s <-> wp m (fun a s' => wp (k a) Q E U s') E U s.
Proof. unfold wp, bind. destruct (m s); reflexivity. Qed.
Lemma wp_ret S A (a : A) Q E U (s : S) : wp (ret a) Q E U s <-> Q a s.
Proof. reflexivity. Qed.
Lemma wp_fail S A e (Q : A -> S -> Prop) E U s : wp (fail e) Q E U s <-> E e s.
Proof. reflexivity. Qed.
Lemma wp_get A (f : rt -> A) Q E U s : wp (get f) Q E U s <-> Q (f s) s.
Proof. reflexivity. Qed.
Lemma wp_put f Q E U s : wp (put f) Q E U s <-> Q tt (f s).
Proof. reflexivity. Qed.
Lemma wp_throw_if c e Q E U s :
  wp (throw_if c e) Q E U s <-> if c then E e s else Q tt s.
Proof. destruct c; reflexivity. Qed.
Lemma wp_conseq S A (m : S -> res S A) (Q Q' : A -> S -> Prop) (E E' : err -> S -> Prop) (U U' : ub -> Prop) s :
  wp m Q E U s -> (forall a s', Q a s' -> Q' a s') -> (forall e s', E e s' -> E' e s') ->
  (forall u, U u -> U' u) -> wp m Q' E' U' s.
Proof. unfold wp. destruct (m s); auto. Qed.

Definition noub : ub -> Prop := fun _ => False.
Definition nomem : ub -> Prop := fun u => u <> UBMem.

Ltac dlay := repeat match goal with
  | H : layout _ |- _ => destruct H
  | H : pointers_inside _ |- _ => destruct H
  | H : pointers_ok _ |- _ => destruct H
  end.
Ltac wsimp := cbn [mem mem_size data_size hp sp stp frm hp_scope heap_scopes direct_arrays
   set_mem set_hp set_sp set_frm set_hp_scope] in *.

Lemma bad_address_spec s a : bad_address s a = false <-> script_address s a.
Proof. unfold bad_address, script_address, in_gap. lia. Qed.

Lemma throwIfBadAddress_ok s a : script_address s a -> throwIfBadAddress a s = Ok a s.
Proof. intros H. unfold throwIfBadAddress. now rewrite (proj2 (bad_address_spec s a) H). Qed.
Lemma throwIfBadAddress_bad s a : ~ script_address s a -> throwIfBadAddress a s = Fail INVALID_ADDRESS s.
Proof.
  intros H. unfold throwIfBadAddress. destruct (bad_address s a) eqn:E; [reflexivity|].
  exfalso. apply H. now apply bad_address_spec.
Qed.
Lemma script_address_dec s a : {script_address s a} + {~ script_address s a}.
Proof.
  destruct (bad_address s a) eqn:E; [right|left].
  - intros H. apply bad_address_spec in H. congruence.
  - now apply bad_address_spec.
Qed.

Lemma in_mem_true s a n : 0 <= a -> a + n <= mem_size s -> in_mem s a n = true.
Proof. unfold in_mem. lia. Qed.

Lemma getCellValue_ok s a : layout s -> script_address s a ->
  getCellValue a s = Ok (load32 (mem s) a) s.
Proof.
  intros L H. unfold getCellValue, bind. rewrite throwIfBadAddress_ok by assumption.
  unfold rd32. rewrite in_mem_true; [reflexivity| |]; destruct H as [H _]; dlay; lia.
Qed.
Lemma getCellValue_bad s a : ~ script_address s a -> getCellValue a s = Fail INVALID_ADDRESS s.
Proof. intros H. unfold getCellValue, bind. now rewrite throwIfBadAddress_bad. Qed.
Lemma setCellValue_ok s a v : layout s -> script_address s a ->
  setCellValue a v s = Ok tt (set_mem (store32 (mem s) a v) s).
Proof.
  intros L H. unfold setCellValue, bind. rewrite throwIfBadAddress_ok by assumption.
  unfold wr32. rewrite in_mem_true; [reflexivity| |]; destruct H as [H _]; dlay; lia.
Qed.
Lemma setCellValue_bad s a v : ~ script_address s a -> setCellValue a v s = Fail INVALID_ADDRESS s.
Proof. intros H. unfold setCellValue, bind. now rewrite throwIfBadAddress_bad. Qed.
Lemma getFrameValue_eq o s : getFrameValue o s = getCellValue (wrap32 (frm s + o)) s.
Proof. reflexivity. Qed.
Lemma setFrameValue_eq o v s : setFrameValue o v s = setCellValue (wrap32 (frm s + o)) v s.
Proof. reflexivity. Qed.

(* Invariant and relation carried by the safety proof. *)
Definition I (s : rt) : Prop := layout s /\ pointers_inside s.
Definition R0 (s s' : rt) : Prop :=
  same_plugin s s' /\ forall x, x < 0 \/ mem_size s <= x -> mem s' x = mem s x.
Definition R (s s' : rt) : Prop := R0 s s' /\ I s'.

Lemma R0_refl s : R0 s s. Proof. repeat split. Qed.
Lemma R0_trans a b c : R0 a b -> R0 b c -> R0 a c.
Proof.
  intros [[] H1] [[] H2]. split; [split; congruence|].
  intros x Hx. rewrite H2, H1; auto; congruence || (rewrite sp_size0; auto).
Qed.
Lemma R_refl s : I s -> R s s. Proof. split; auto using R0_refl. Qed.
Lemma R_trans a b c : R a b -> R b c -> R a c.
Proof. intros [? _] [? ?]. split; [eapply R0_trans; eauto|auto]. Qed.

Definition safe {A} (m : RM A) : Prop :=
  forall s, I s -> wp m (fun _ s' => R s s') (fun _ s' => R0 s s') nomem s.

Lemma safe_bind A B (m : RM A) (k : A -> RM B) : safe m -> (forall a, safe (k a)) -> safe (bind m k).
Proof.
  intros Hm Hk s Hs. specialize (Hm s Hs). rewrite wp_bind. unfold wp in *.
  destruct (m s) as [a s'|e s'|u]; auto. specialize (Hk a s' (proj2 Hm)). unfold wp in Hk.
  destruct (k a s') as [b s''|e s''|u]; auto; [eapply R_trans|eapply R0_trans; [apply Hm|]]; eauto.
Qed.
Lemma safe_ret A (a : A) : safe (ret a). Proof. intros s Hs. now apply R_refl. Qed.
Lemma safe_fail A e : safe (@fail rt A e). Proof. intros s Hs. apply R0_refl. Qed.
Lemma safe_get A (f : rt -> A) : safe (get f). Proof. intros s Hs. now apply R_refl. Qed.
Lemma safe_throw_if c e : safe (throw_if c e).
Proof. destruct c; [apply safe_fail|apply safe_ret]. Qed.
Lemma safe_assert c : safe (assert_ c).
Proof. destruct c; [apply safe_ret|]. intros s Hs. discriminate. Qed.
Lemma safe_throwIfBadAddress a : safe (throwIfBadAddress a).
Proof.
  intros s Hs. unfold wp, throwIfBadAddress. destruct (bad_address s a); [apply R0_refl|now apply R_refl].
Qed.

Lemma R_set_mem s m : I s -> (forall x, x < 0 \/ mem_size s <= x -> m x = mem s x) -> R s (set_mem m s).
Proof. intros [L P] H. split; [split; [constructor; reflexivity|exact H]|]. split; [destruct L|destruct P]; constructor; auto. Qed.

Lemma R_set_sp s v : I s -> 0 <= v < mem_size s -> R s (set_sp v s).
Proof. intros [L P] H. split; [split; [constructor; reflexivity|reflexivity]|]. split; [destruct L|destruct P]; constructor; auto. Qed.
Lemma R_set_hp s v : I s -> 0 <= v <= stp s -> R s (set_hp v s).
Proof. intros [L P] H. split; [split; [constructor; reflexivity|reflexivity]|]. split; [destruct L|destruct P]; constructor; auto. Qed.
Lemma R_set_frm s v : I s -> is_i32 v -> R s (set_frm v s).
Proof. intros [L P] H. split; [split; [constructor; reflexivity|reflexivity]|]. split; [destruct L|destruct P]; constructor; auto. Qed.
Lemma R_set_hp_scope s v : I s -> is_i32 v -> R s (set_hp_scope v s).
Proof. intros [L P] H. split; [split; [constructor; reflexivity|reflexivity]|]. split; [destruct L|destruct P]; constructor; auto. Qed.
Lemma R0_set_hp s v : R0 s (set_hp v s). Proof. repeat split. Qed.

Ltac bnd := unfold is_i32, two31 in *; lia.
Ltac ub_in := rewrite in_mem_true by lia.

Lemma wr32_R s a v : I s -> 0 <= a -> a + 4 <= mem_size s ->
  wr32 a v s = Ok tt (set_mem (store32 (mem s) a v) s) /\ R s (set_mem (store32 (mem s) a v) s).
Proof.
  intros Hs H1 H2. unfold wr32. rewrite in_mem_true by lia. split; [reflexivity|].
  apply R_set_mem; auto. intros. apply store32_out. lia.
Qed.

Lemma safe_getCellValue a : safe (getCellValue a).
Proof.
  intros s Hs. unfold wp. destruct (script_address_dec s a).
  - rewrite getCellValue_ok by (auto; apply Hs). now apply R_refl.
  - rewrite getCellValue_bad by auto. apply R0_refl.
Qed.
Lemma safe_setCellValue a v : safe (setCellValue a v).
Proof.
  intros s Hs. unfold wp. destruct (script_address_dec s a) as [H|H].
  - rewrite setCellValue_ok by (auto; apply Hs). destruct Hs as [L P]. apply R_set_mem; [split; auto|].
    intros. apply store32_out. destruct H. dlay. lia.
  - rewrite setCellValue_bad by auto. apply R0_refl.
Qed.
Lemma safe_getFrameValue o : safe (getFrameValue o).
Proof. intros s Hs. unfold wp. rewrite getFrameValue_eq. apply safe_getCellValue. exact Hs. Qed.
Lemma safe_setFrameValue o v : safe (setFrameValue o v).
Proof. intros s Hs. unfold wp. rewrite setFrameValue_eq. apply safe_setCellValue. exact Hs. Qed.

(* Closed forms of the stack operations. *)
Lemma pushStack_eq s v : I s ->
  pushStack v s =
  if sp s <=? hp s + 4 then Fail STACKLOW s
  else Ok tt (set_mem (store32 (mem s) (sp s - 4) v) (set_sp (sp s - 4) s)).
Proof.
  intros [L P]. unfold pushStack, bind, get, put, throw_if.
  rewrite (wrap32_id (hp s + 4)) by (dlay; bnd).
  destruct (sp s <=? hp s + 4) eqn:E; [reflexivity|].
  unfold ret. rewrite wrap32_id by (dlay; bnd). unfold wr32.
  rewrite in_mem_true; [reflexivity| |]; wsimp; dlay; bnd.
Qed.
Lemma popStack_eq s : I s ->
  popStack s = if sp s >=? stp s then Fail STACKMIN s
               else Ok (load32 (mem s) (sp s)) (set_sp (sp s + 4) s).
Proof.
  intros [L P]. unfold popStack, bind, get, put, throw_if.
  destruct (sp s >=? stp s) eqn:E; [reflexivity|]. unfold ret, rd32.
  rewrite in_mem_true by (dlay; bnd). rewrite wrap32_id by (dlay; bnd). reflexivity.
Qed.

Lemma safe_pushStack v : safe (pushStack v).
Proof.
  intros s Hs. unfold wp. rewrite pushStack_eq by assumption.
  destruct (sp s <=? hp s + 4) eqn:E; [apply R0_refl|].
  eapply R_trans; [apply (R_set_sp s (sp s - 4)); auto; destruct Hs; dlay; lia|].
  apply R_set_mem; [apply R_set_sp; auto; destruct Hs; dlay; lia|].
  wsimp. intros. apply store32_out. destruct Hs; dlay; lia.
Qed.
Lemma safe_popStack : safe popStack.
Proof.
  intros s Hs. unfold wp. rewrite popStack_eq by assumption.
  destruct (sp s >=? stp s) eqn:E; [apply R0_refl|].
  apply R_set_sp; auto. destruct Hs; dlay; lia.
Qed.

(* heapAlloc: no wrap-around as long as the amount leaves room below 2^31. *)

Lemma heapAlloc_eq s n : I s -> amount_ok s n ->
  heapAlloc n s =
  if n <? 0 then (if hp s + n <? data_size s then Fail HEAPMIN s else Ok (hp s) (set_hp (hp s + n) s))
  else (if hp s + n + 64 >? sp s then Fail HEAPLOW s else Ok (hp s) (set_hp (hp s + n) s)).
Proof.
  intros [L P] [H1 H2]. unfold heapAlloc, bind, get, put, throw_if, ret, STACK_MARGIN.
  rewrite (wrap32_id (hp s + n)) by (dlay; bnd).
  destruct (n <? 0) eqn:E.
  - rewrite (wrap32_id (data_size s)) by (dlay; bnd).
    destruct (hp s + n <? data_size s); reflexivity.
  - rewrite (wrap32_id (hp s + n + 64)) by (dlay; bnd).
    destruct (hp s + n + 64 >? sp s); reflexivity.
Qed.
Lemma amount_ok_4 s : I s -> amount_ok s 4.
Proof. intros [[] _]. split; bnd. Qed.

Lemma addStack_eq s n : I s -> amount_ok s n ->
  addStack n s =
  if n <? 0 then (if sp s + n <? hp s + 64 then Fail STACKLOW s else Ok tt (set_sp (sp s + n) s))
  else (if sp s + n >? stp s then Fail STACKMIN s else Ok tt (set_sp (sp s + n) s)).
Proof.
  intros [L P] [H1 H2]. unfold addStack, bind, get, put, throw_if, ret, STACK_MARGIN.
  rewrite (wrap32_id (sp s + n)) by (dlay; bnd).
  destruct (n <? 0) eqn:E.
  - rewrite (wrap32_id (hp s + 64)) by (dlay; bnd).
    destruct (sp s + n <? hp s + 64); reflexivity.
  - destruct (sp s + n >? stp s); reflexivity.
Qed.

Lemma safe_heapAlloc_at s n : I s -> amount_ok s n ->
  wp (heapAlloc n) (fun a s' => a = hp s /\ hp s' = hp s + n /\ R s s') (fun _ s' => R0 s s') nomem s.
Proof.
  intros Hs Hn. unfold wp. rewrite heapAlloc_eq by assumption.
  destruct (n <? 0) eqn:E.
  - destruct (hp s + n <? data_size s) eqn:F; [apply R0_refl|]. repeat split; try reflexivity;
    apply R_set_hp; auto; destruct Hs; dlay; lia.
  - destruct (hp s + n + 64 >? sp s) eqn:F; [apply R0_refl|]. repeat split; try reflexivity;
    apply R_set_hp; auto; destruct Hs; dlay; lia.
Qed.
Lemma safe_addStack_at s n : I s -> amount_ok s n ->
  wp (addStack n) (fun _ s' => R s s') (fun _ s' => R0 s s') nomem s.
Proof.
  intros Hs Hn. unfold wp. rewrite addStack_eq by assumption.
  destruct (n <? 0) eqn:E.
  - destruct (sp s + n <? hp s + 64) eqn:F; [apply R0_refl|]. apply R_set_sp; auto; destruct Hs; dlay; lia.
  - destruct (sp s + n >? stp s) eqn:F; [apply R0_refl|]. apply R_set_sp; auto; destruct Hs; dlay; lia.
Qed.

Lemma R_I s s' : R s s' -> I s'. Proof. intros [_ H]; exact H. Qed.
Lemma R_R0 s s' : R s s' -> R0 s s'. Proof. intros [H _]; exact H. Qed.
Lemma R_size s s' : R s s' -> mem_size s' = mem_size s. Proof. intros [[[] _] _]; auto. Qed.
Lemma R_stp s s' : R s s' -> stp s' = stp s. Proof. intros [[[] _] _]; auto. Qed.
Lemma R_data s s' : R s s' -> data_size s' = data_size s. Proof. intros [[[] _] _]; auto. Qed.

(* Sequencing a step that is safe at [s] with a continuation known safe at its results. *)
Lemma wp_seq A B (m : RM A) (k : A -> RM B) (Q : A -> rt -> Prop) s0 s :
  R s0 s ->
  wp m (fun a s' => R s s' /\ Q a s') (fun _ s' => R0 s s') nomem s ->
  (forall a s', R s0 s' -> R s s' -> Q a s' ->
     wp (k a) (fun _ s'' => R s0 s'') (fun _ s'' => R0 s0 s'') nomem s') ->
  wp (bind m k) (fun _ s'' => R s0 s'') (fun _ s'' => R0 s0 s'') nomem s.
Proof.
  intros HR Hm Hk. rewrite wp_bind. unfold wp in *. destruct (m s); auto.
  - destruct Hm as [H1 H2]. apply Hk; auto. eapply R_trans; eauto.
  - eapply R0_trans; [apply HR|exact Hm].
Qed.
Lemma wp_safe_at A (m : RM A) s0 s : R s0 s -> safe m ->
  wp m (fun _ s' => R s0 s') (fun _ s' => R0 s0 s') nomem s.
Proof.
  intros HR Hm. specialize (Hm s (R_I _ _ HR)). unfold wp in *. destruct (m s); auto.
  - eapply R_trans; eauto.
  - eapply R0_trans; [apply HR|auto].
Qed.
Lemma R_of_mem s0 s m : R s0 s -> (forall x, x < 0 \/ mem_size s <= x -> m x = mem s x) -> R s0 (set_mem m s).
Proof. intros H1 H2. eapply R_trans; [exact H1|]. apply R_set_mem; auto. apply (R_I _ _ H1). Qed.

Lemma wp_wr32 s0 s a v : R s0 s -> 0 <= a -> a + 4 <= mem_size s ->
  wp (wr32 a v) (fun _ s' => R s0 s') (fun _ s' => R0 s0 s') nomem s.
Proof.
  intros HR H1 H2. unfold wp. destruct (wr32_R s a v (R_I _ _ HR) H1 H2) as [-> H].
  eapply R_trans; eauto.
Qed.

Lemma safe_pushTracker n : safe (pushTracker n).
Proof.
  intros s Hs. unfold pushTracker.
  rewrite wp_bind, wp_get, wp_bind. unfold assert_. destruct (negb (heap_scopes s)); [|discriminate].
  rewrite wp_ret, wp_bind, wp_throw_if.
  destruct (u32 n >? 2147483647); [apply R0_refl|].
  rewrite wp_bind, wp_throw_if.
  destruct (wrap32 (sp s - hp s) <? STACK_MARGIN) eqn:E; [apply R0_refl|].
  assert (HH : hp s + 64 <= sp s).
  { unfold STACK_MARGIN in E. rewrite wrap32_id in E by (destruct Hs; dlay; bnd). lia. }
  rewrite wp_bind. unfold wp at 1.
  destruct (wr32_R s (hp s) (wrap32 n) Hs) as [-> HR]; [destruct Hs; dlay; lia..|].
  rewrite wp_put, wrap32_id by (wsimp; destruct Hs; dlay; bnd).
  eapply R_trans; [exact HR|]. apply R_set_hp; [apply (R_I _ _ HR)|]. wsimp. destruct Hs; dlay; lia.
Qed.

Lemma safe_popTracker : safe popTrackerAndSetHeap.
Proof.
  intros s Hs. unfold popTrackerAndSetHeap.
  rewrite wp_bind, wp_get, wp_bind. unfold assert_.
  rewrite (wrap32_id (data_size s)) by (destruct Hs; dlay; bnd).
  destruct ((sp s >=? hp s) && (hp s >=? data_size s)) eqn:G; [|discriminate].
  rewrite wp_ret, wp_bind, wp_throw_if.
  rewrite (wrap32_id (hp s - data_size s)) by (destruct Hs; dlay; bnd).
  destruct (hp s - data_size s <? 4) eqn:E; [apply R0_refl|].
  rewrite wp_bind, wp_put, (wrap32_id (hp s - 4)) by (destruct Hs; dlay; bnd).
  assert (HR : R s (set_hp (hp s - 4) s)) by (apply R_set_hp; auto; destruct Hs; dlay; lia).
  rewrite wp_bind, wp_get, wp_bind. wsimp. unfold wp at 1, rd32.
  rewrite in_mem_true by (wsimp; destruct Hs; dlay; lia). wsimp.
  set (amt := load32 (mem s) (hp s - 4)).
  rewrite wp_bind, wp_throw_if.
  rewrite (wrap32_id (hp s - 4 - data_size s)) by (destruct Hs; dlay; bnd).
  destruct ((amt <? 0) || (hp s - 4 - data_size s <? amt)) eqn:F; [apply HR|].
  rewrite wp_put, wrap32_id by (destruct Hs; dlay; bnd).
  eapply R_trans; [exact HR|]. apply R_set_hp; [apply (R_I _ _ HR)|]. wsimp. destruct Hs; dlay; lia.
Qed.

Lemma safe_enterHeapScope : safe enterHeapScope.
Proof.
  intros s Hs. unfold enterHeapScope. rewrite wp_bind, wp_get.
  eapply wp_seq with (Q := fun a s' => a = hp s); [now apply R_refl| |].
  { eapply wp_conseq; [apply safe_heapAlloc_at; auto using amount_ok_4|..]; cbv beta; intuition. }
  intros a s' HR _ ->. rewrite wp_bind, wp_put.
  assert (HR2 : R s (set_hp_scope (hp s) s')).
  { eapply R_trans; [exact HR|]. apply R_set_hp_scope; [apply (R_I _ _ HR)|]. destruct Hs; dlay; bnd. }
  rewrite wp_bind. unfold wp at 1, throwIfBadAddress.
  destruct (bad_address _ _) eqn:E; [apply HR2|].
  apply bad_address_spec in E. apply wp_wr32; auto; destruct E as [E _]; destruct (R_I _ _ HR2); dlay; wsimp; lia.
Qed.

Lemma safe_leaveHeapScope : safe leaveHeapScope.
Proof.
  intros s Hs. unfold leaveHeapScope. rewrite wp_bind, wp_get, wp_bind.
  unfold wp at 1, throwIfBadAddress at 1. destruct (bad_address s (hp_scope s)) eqn:E; [apply R0_refl|].
  apply bad_address_spec in E. destruct E as [E _].
  rewrite wp_bind. unfold wp at 1, rd32. rewrite in_mem_true by (destruct Hs; dlay; lia).
  rewrite wp_bind, wp_put, wp_bind, wp_put.
  set (prev := load32 (mem s) (hp_scope s)).
  assert (HR : R s (set_hp_scope prev (set_hp (hp_scope s) s))).
  { assert (H1 : R s (set_hp (hp_scope s) s)) by (apply R_set_hp; auto; lia).
    eapply R_trans; [exact H1|]. apply R_set_hp_scope; [apply (R_I _ _ H1)|]. apply load32_range. }
  destruct (prev =? -1); [exact HR|].
  apply wp_safe_at; auto. apply safe_bind; [apply safe_throwIfBadAddress|intros; apply safe_ret].
Qed.

Lemma safe_pushAmxFrame : safe pushAmxFrame.
Proof.
  intros s Hs. unfold pushAmxFrame. rewrite wp_bind, wp_get.
  eapply wp_seq with (Q := fun _ _ => True); [now apply R_refl| |].
  { eapply wp_conseq; [apply safe_pushStack; auto|..]; cbv beta; intuition. }
  intros _ s1 H1 _ _.
  eapply wp_seq with (Q := fun _ _ => True); [exact H1| |].
  { eapply wp_conseq; [apply safe_heapAlloc_at; eauto using R_I, amount_ok_4|..]; cbv beta; intuition. }
  intros a s2 H2 _ _. rewrite wp_bind. unfold wp at 1, throwIfBadAddress.
  destruct (bad_address s2 a) eqn:E; [apply H2|]. apply bad_address_spec in E. destruct E as [E _].
  rewrite wp_bind, wp_get.
  eapply wp_seq with (Q := fun _ _ => True); [exact H2| |].
  { eapply wp_conseq; [apply (wp_wr32 s2 s2); [apply R_refl, (R_I _ _ H2)|..]|..];
      try (destruct (R_I _ _ H2); dlay; lia); cbv beta; intuition. }
  intros _ s3 H3 _ _.
  eapply wp_seq with (Q := fun _ _ => True); [exact H3| |].
  { eapply wp_conseq; [apply safe_pushStack; apply (R_I _ _ H3)|..]; cbv beta; intuition. }
  intros _ s4 H4 _ _. rewrite wp_bind, wp_get, wp_put.
  eapply R_trans; [exact H4|]. apply R_set_frm; [apply (R_I _ _ H4)|].
  destruct (R_I _ _ H4); dlay; bnd.
Qed.
