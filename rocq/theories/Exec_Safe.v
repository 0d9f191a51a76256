(* Memory safety of every instruction and of whole runs. *)
From Verif Require Import Base Base_Proofs Rt_Model Array_Model Interp_Model Rt_Spec Rt_Proofs Hist_Proofs
  Array_Spec Array_Proofs Array_Exec Mem_Spec Mem_Proofs Init_Proofs.
From Coq Require Import ZifyBool.
Ltac Zify.zify_post_hook ::= Z.div_mod_to_equations.

Definition Ri (st st' : ist) : Prop := R (rts st) (rts st').
Definition R0i (st st' : ist) : Prop := R0 (rts st) (rts st').
Definition safe_at {A} (m : IM A) (st0 st : ist) : Prop :=
  wp m (fun _ st' => Ri st0 st') (fun _ st' => R0i st0 st') nomem st.
Definition safeI {A} (m : IM A) : Prop := forall st0 st, Ri st0 st -> safe_at m st0 st.

Lemma safeI_ret A (a : A) : safeI (ret a). Proof. intros st0 st H. exact H. Qed.
Lemma safeI_fail A e : safeI (@fail ist A e). Proof. intros st0 st H. apply (R_R0 _ _ H). Qed.
Lemma safeI_undef A u : u <> UBMem -> safeI (@undef ist A u). Proof. intros H st0 st _. exact H. Qed.
Lemma safeI_bind A B (m : IM A) (k : A -> IM B) : safeI m -> (forall a, safeI (k a)) -> safeI (bind m k).
Proof.
  intros Hm Hk st0 st H. specialize (Hm st0 st H). unfold safe_at in *. rewrite wp_bind. unfold wp in *.
  destruct (m st) as [a st'| |]; auto. now apply Hk.
Qed.
Lemma safeI_lift A (m : RM A) : safe m -> safeI (lift m).
Proof.
  intros Hm st0 st H. specialize (Hm (rts st) (R_I _ _ H)). unfold safe_at, wp, lift in *.
  destruct (m (rts st)) as [a s'|e s'|u]; auto; [eapply R_trans|eapply R0_trans; [apply H|]]; eauto.
Qed.
Lemma safeI_getr r : safeI (getr r). Proof. intros st0 st H. exact H. Qed.
Lemma safeI_setr r v : safeI (setr r v). Proof. intros st0 st H. destruct r; exact H. Qed.
Lemma safeI_sarith z : safeI (sarith false z).
Proof. intros st0 st H. unfold safe_at, wp. now rewrite sarith_false. Qed.
Lemma safeI_sarith64 z : safeI (sarith64 false z).
Proof. unfold sarith64. destruct (is_i64b z); apply safeI_ret. Qed.
Lemma safeI_if A (b : bool) (m1 m2 : IM A) : safeI m1 -> safeI m2 -> safeI (if b then m1 else m2).
Proof. now destruct b. Qed.
Lemma safe_if A (b : bool) (m1 m2 : RM A) : safe m1 -> safe m2 -> safe (if b then m1 else m2).
Proof. now destruct b. Qed.

Lemma safe_acquire a n : safe (acquireAddrRange a n).
Proof.
  unfold acquireAddrRange. apply safe_bind; [apply safe_throwIfBadAddress|]. intros p. apply safe_if; [apply safe_ret|].
  apply safe_bind; [apply safe_throwIfBadAddress|]. intros. apply safe_ret.
Qed.
Lemma safe_push_list l : safe (push_list l).
Proof. induction l; cbn [push_list]; [apply safe_ret|]. apply safe_bind; auto using safe_pushStack. Qed.
Lemma safe_push_cells l : safe (push_cells l).
Proof.
  induction l; cbn [push_cells]; [apply safe_ret|]. apply safe_bind; [apply safe_getCellValue|]. intros.
  apply safe_bind; auto using safe_pushStack.
Qed.
Lemma safe_push_frame mi l : safe (push_frame mi l).
Proof.
  induction l; cbn [push_frame]; [apply safe_ret|]. apply safe_bind; [apply safe_getFrameValue|]. intros.
  apply safe_bind; auto using safe_pushStack.
Qed.
Lemma safe_push_adr mi l : safe (push_adr mi l).
Proof.
  induction l; cbn [push_adr]; [apply safe_ret|]. apply safe_bind; [apply safe_get|]. intros.
  apply safe_bind; auto using safe_pushStack.
Qed.
Lemma safe_pop_n n : safe (pop_n n).
Proof. induction n; cbn [pop_n]; [apply safe_ret|]. apply safe_bind; auto using safe_popStack. Qed.

(* An access at an address just checked. *)
Lemma safeI_at_address A a (k : Z -> IM A) :
  (forall st0 st, Ri st0 st -> script_address (rts st) a -> safe_at (k a) st0 st) ->
  safeI (bind (lift (throwIfBadAddress a)) k).
Proof.
  intros Hk st0 st H. unfold safe_at. rewrite wp_bind. unfold wp at 1, lift.
  destruct (script_address_dec (rts st) a) as [A1|A1].
  - rewrite throwIfBadAddress_ok by assumption. apply Hk; auto. 
  - rewrite throwIfBadAddress_bad by assumption. apply (R_R0 _ _ H).
Qed.

Lemma wr64_safe st0 st a v : Ri st0 st -> 0 <= a -> a + 8 <= mem_size (rts st) -> safe_at (lift (wr64 a v)) st0 st.
Proof.
  intros H H1 H2. unfold safe_at, wp, lift, wr64. rewrite in_mem_true by lia. cbn [rts]. apply R_of_mem; auto.
  intros x Hx. unfold store64. destruct ((a <=? x) && (x <? a + 8)) eqn:E; [lia|reflexivity].
Qed.
Lemma rd64_eq st a : 0 <= a -> a + 8 <= mem_size (rts st) -> lift (rd64 a) st = Ok (load64 (mem (rts st)) a) st.
Proof. intros H1 H2. unfold lift, rd64. rewrite in_mem_true by lia. destruct st; reflexivity. Qed.

(* Stepping [safe_at]. *)
Lemma sa_bind A B (m : IM A) (k : A -> IM B) st0 st a st' : m st = Ok a st' -> safe_at (k a) st0 st' -> safe_at (bind m k) st0 st.
Proof. intros E H. unfold safe_at in *. rewrite wp_bind. unfold wp at 1. now rewrite E. Qed.
Lemma sa_fail A B (m : IM A) (k : A -> IM B) st0 st e st' : m st = Fail e st' -> R0i st0 st' -> safe_at (bind m k) st0 st.
Proof. intros E H. unfold safe_at in *. rewrite wp_bind. unfold wp at 1. now rewrite E. Qed.

(* An eight-byte read at a script address. *)
Lemma acquire64 A st0 st a (k : Z -> IM A) : Ri st0 st -> is_i32 a ->
  (0 <= a -> a + 8 <= mem_size (rts st) -> safe_at (k a) st0 st) ->
  safe_at (bind (lift (acquireInt64Addr a)) k) st0 st.
Proof.
  intros H Hi Hk. assert (L : layout (rts st)) by apply (R_I _ _ H).
  assert (LB : 16384 <= mem_size (rts st) /\ mem_size (rts st) + 128 <= two31) by (destruct L; lia).
  unfold acquireInt64Addr. destruct (legal_dec (rts st) (block a 8)) as [B|B].
  - apply (sa_bind _ _ _ _ _ _ a st).
    + unfold lift. rewrite acquire_ok by (auto; unfold two31, two32 in *; lia). destruct st; reflexivity.
    + pose proof (block_inside _ a 8 L ltac:(lia) B). apply Hk; lia.
  - apply (sa_fail _ _ _ _ _ _ INVALID_ADDRESS st); [|apply (R_R0 _ _ H)].
    unfold lift. rewrite acquire_bad by (auto; lia). destruct st; reflexivity.
Qed.
Lemma slot64 A st0 st mi o (k : Z -> IM A) : Ri st0 st -> slot64_ok (rts st) (slot mi st o) ->
  (0 <= slot mi st o -> slot mi st o + 8 <= mem_size (rts st) -> safe_at (k (slot mi st o)) st0 st) ->
  safe_at (bind (lift (acquireInt64Slot (so mi o))) k) st0 st.
Proof.
  intros H [S1 S2] Hk. apply (sa_bind _ _ _ _ _ _ (slot mi st o) st).
  - unfold lift, acquireInt64Slot, so. fold (slot mi st o). rewrite (proj2 (bad_address_spec _ _) S1). destruct st; reflexivity.
  - apply Hk; destruct S1; lia.
Qed.

Lemma safeI_eval_bin64 op p a : safeI (eval_bin64 false op p a).
Proof.
  assert (D : forall x y, safeI (check_div64 x y)).
  { intros x y. unfold check_div64. repeat apply safeI_if; auto using safeI_fail, safeI_ret. }
  destruct op; cbn [eval_bin64]; try apply safeI_sarith64; try apply safeI_ret;
    try (apply safeI_if; [apply safeI_ret|apply safeI_undef; discriminate]);
    (apply safeI_bind; [apply D|intros; apply safeI_ret]).
Qed.
Lemma safeI_check_div p a : safeI (check_div p a).
Proof. unfold check_div. repeat apply safeI_if; auto using safeI_fail, safeI_ret. Qed.
Lemma safeI_shift p a : safeI (shl32 p a) /\ safeI (shr32 p a) /\ safeI (sshr32 p a).
Proof.
  repeat split; unfold shl32, shr32, sshr32; (apply safeI_if; [apply safeI_ret|apply safeI_undef; discriminate]).
Qed.

(* Evaluation of a 64-bit value keeps the state: a stronger rule than [safeI_bind] for the store. *)
Lemma eval_keeps op p a st : match eval_bin64 false op p a st with Ok _ st' | Fail _ st' => st' = st | UB u => u <> UBMem end.
Proof.
  assert (S : forall z, match sarith64 false z st with Ok _ st' | Fail _ st' => st' = st | UB u => u <> UBMem end).
  { intros z. unfold sarith64. destruct (is_i64b z); reflexivity. }
  destruct op; cbn [eval_bin64]; try apply S; try reflexivity;
    try (destruct (shift_ok64 a); [reflexivity|discriminate]);
    unfold bind, check_div64; destruct (_ =? 0); try reflexivity; destruct (_ && _); reflexivity.
Qed.

Lemma invoke_safe nat_ n : good_natives nat_ -> nat_ n <> None -> safeI (invokeNative nat_ n).
Proof.
  intros HG Hn st0 st H. unfold safe_at, wp, invokeNative. destruct (nat_ n) as [nt|] eqn:E; [|congruence].
  destruct (n_fn nt) as [f|] eqn:F; [|apply (R_R0 _ _ H)].
  pose proof (HG n nt f E F (rts st) (R_I _ _ H)) as G.
  assert (P : pointers_inside (rts st)) by apply (R_I _ _ H).
  assert (X : forall r, R (rts st) r -> R (rts st) (set_hp (hp (rts st)) (set_sp (sp (rts st)) r))).
  { intros r Hr. assert (Hr' := Hr). destruct Hr' as [[[] M] I1].
    eapply R_trans; [exact Hr|].
    eapply R_trans; [apply (R_set_sp r (sp (rts st)) I1); destruct P; lia|]. apply R_set_hp; [|wsimp; destruct P; lia].
    apply (R_set_sp r (sp (rts st)) I1). destruct P; lia. }
  destruct (f (rts st)) as [v r|e r|u]; [| |exact G]; unfold Ri, R0i; cbn [rts].
  - eapply R_trans; [exact H|auto].
  - eapply R0_trans; [apply (R_R0 _ _ H)|]. apply X. exact G.
Qed.

Lemma genarray_safe strict fe nat_ mi n z st0 st : Ri st0 st -> operand_ok nat_ mi st (GENARRAY n z) ->
  safe_at (exec strict fe nat_ mi (GENARRAY n z)) st0 st.
Proof.
  intros H (Hn & Hn4 & H1 & H2 & H64). destruct st as [s p a]. cbn [rts] in *. unfold safe_at, wp.
  assert (Hs : I s) by apply (R_I _ _ H). assert (Hs' := Hs). destruct Hs' as [L P].
  assert (LB : 16384 <= mem_size s /\ mem_size s + 128 <= two31 /\ stp s = mem_size s - 4 /\ 0 <= data_size s) by (destruct L; lia).
  destruct (Z_le_gt_dec (sp s + 4 * n) (stp s)) as [HS|HS].
  - assert (PO : pointers_ok s) by (constructor; lia).
    destruct P as [P1 P2 P3 P4].
    assert (Hdec : fits s n \/ ~ fits s n).
    { unfold fits. destruct (pos_dec (pushed_sizes s n)) as [HP|HP]; [|right; intros [X _]; contradiction].
      destruct (n =? 1).
      - destruct (Z_lt_ge_dec (hp s + 4 * total_cells (pushed_sizes s n)) (sp s)); [|right; intros (_ & X & _); lia].
        destruct (heap_scopes s); [left; repeat split; auto; congruence|].
        destruct (Z_le_gt_dec (hp s + 4 * total_cells (pushed_sizes s n) + 64) (sp s)); [left; auto|].
        right. intros (_ & _ & X). specialize (X eq_refl). lia.
      - destruct (Z_lt_ge_dec (hp s + 4 * total_cells (pushed_sizes s n) + 64) (sp s)); [left; auto|right; intros (_ & X); lia]. }
    destruct Hdec as [HF|HF].
    + destruct (genarray_granted strict fe nat_ mi s p a n z L PO P3 P4 Hn HS HF) as (s'' & E2 & _ & s1 & M & Es).
      rewrite E2. subst s''.
      destruct (genarray_layout strict fe nat_ mi s p a n z _ L PO P3 P4 Hn HS H64 E2) as (_ & X1 & X2 & X3 & X4 & _ & _ & X5).
      unfold Ri in *. cbn [rts] in *. eapply R_trans; [exact H|].
      destruct M as (M1 & M2 & M3 & M4 & [M5 M6 M7 M8 M9] & _). cbn [hp sp stp mem set_sp data_size] in X1, X2, X3, X5.
      destruct X4 as [Y1 Y2 Y3]. cbn [hp sp stp mem set_sp data_size] in Y1, Y2, Y3.
      split; [split; [constructor; wsimp; auto|]|].
      * intros x Hx. wsimp. apply X5; lia.
      * split; [destruct L; constructor; wsimp; congruence || lia|constructor; wsimp; rewrite ?M3, ?M4, ?M5, ?M7; auto; lia].
    + destruct (genarray_refused strict fe nat_ mi s p a n z L PO P3 P4 Hn HS H64 HF) as (e & s' & E & _ & U & _ & SP & _).
      rewrite E. unfold R0i, Ri in *. cbn [rts] in *. eapply R0_trans; [apply (R_R0 _ _ H)|]. split; [exact SP|].
      intros x Hx. apply U. lia.
  - cbn [exec]. unfold lift. cbn [rts pri alt]. rewrite (bind_ok _ _ _ _ _ _ (sp s) s) by reflexivity.
    rewrite (u32_id (n * 4)) by (unfold is_u32, two31, two32 in *; lia).
    unfold bind at 1. destruct P as [P1 P2 P3 P4].
    assert (E : acquireAddrRange (sp s) (n * 4) s = Fail INVALID_ADDRESS s).
    { unfold acquireAddrRange. destruct (script_address_dec s (sp s)) as [A|A].
      - erewrite bind_ok by (apply throwIfBadAddress_ok; exact A). replace (n * 4 =? 0) with false by lia.
        unfold bind. rewrite throwIfBadAddress_bad; [reflexivity|]. intros [X _]. unfold wrap32 in X. unb. lia.
      - unfold bind. now rewrite throwIfBadAddress_bad. }
    rewrite E. apply (R_R0 _ _ H).
Qed.

Lemma copy_ivs_safe n : forall dst src arr s0 s, R s0 s -> 0 <= src -> 0 <= dst ->
  src + 4 * Z.of_nat n <= mem_size s -> dst + 4 * Z.of_nat n <= mem_size s ->
  exists s', copy_ivs n dst src arr s = Ok tt s' /\ R s0 s' /\ mem_size s' = mem_size s.
Proof.
  induction n as [|n IH]; intros dst src arr s0 s H H1 H2 H3 H4.
  - exists s. auto.
  - cbn [copy_ivs]. erewrite bind_ok by (unfold rd32; rewrite in_mem_true by lia; reflexivity).
    destruct (wr32_R s dst (wrap32 (load32 (mem s) src + arr)) (R_I _ _ H)) as [E HR]; try lia.
    erewrite bind_ok by exact E.
    destruct (IH (dst + 4) (src + 4) arr s0 (set_mem (store32 (mem s) dst (wrap32 (load32 (mem s) src + arr))) s)) as (s' & E' & R' & M');
      wsimp; try lia.
    + eapply R_trans; eauto.
    + exists s'. auto.
Qed.
Lemma fill_cells_safe n : forall dst v s0 s, R s0 s -> 0 <= dst -> dst + 4 * Z.of_nat n <= mem_size s ->
  exists s', fill_cells n dst v s = Ok tt s' /\ R s0 s'.
Proof.
  induction n as [|n IH]; intros dst v s0 s H H1 H2.
  - exists s. auto.
  - cbn [fill_cells]. destruct (wr32_R s dst v (R_I _ _ H)) as [E HR]; try lia. erewrite bind_ok by exact E.
    apply IH; wsimp; try lia. eapply R_trans; eauto.
Qed.
Lemma move_safe d a n s0 s : R s0 s -> 0 <= a -> 0 <= d -> a + n <= mem_size s -> d + n <= mem_size s ->
  exists s', move d a n s = Ok tt s' /\ R s0 s' /\ mem_size s' = mem_size s.
Proof.
  intros H H1 H2 H3 H4. unfold move. destruct (n <=? 0) eqn:E; [exists s; auto|].
  rewrite !in_mem_true by lia. eexists. split; [reflexivity|]. split; [|reflexivity]. apply R_of_mem; auto.
  intros x Hx. unfold move_bytes. destruct ((d <=? x) && (x <? d + n)) eqn:B; [lia|reflexivity].
Qed.
Lemma clear_safe a n s0 s : R s0 s -> 0 <= a -> a + n <= mem_size s ->
  exists s', clear a n s = Ok tt s' /\ R s0 s'.
Proof.
  intros H H1 H2. unfold clear. destruct (n <=? 0) eqn:E; [exists s; auto|].
  rewrite !in_mem_true by lia. eexists. split; [reflexivity|]. apply R_of_mem; auto.
  intros x Hx. unfold fill_bytes. destruct ((a <=? x) && (x <? a + n)) eqn:B; [lia|reflexivity].
Qed.

Lemma init_safe arr dat iv copy fill v s : I s -> 0 <= iv -> 0 <= copy -> 0 <= fill ->
  arr mod 4 = 0 -> dat mod 4 = 0 -> is_i32 arr -> is_i32 dat -> mem_size s mod 4 = 0 -> data_size s mod 4 = 0 ->
  wp (initArray arr dat iv copy fill v) (fun _ s' => R s s') (fun _ s' => R0 s s') nomem s.
Proof.
  intros Hs Hiv Hcp Hfl Ha Hd Hai Hdi Hm Hz. assert (Hs' := Hs). destruct Hs' as [L P].
  assert (LB : 16384 + data_size s <= mem_size s /\ mem_size s + 128 <= two31 /\ 0 <= data_size s) by (destruct L; lia).
  assert (U : forall a, is_i32 a -> local_bad s a = false -> 0 <= a /\ a < mem_size s).
  { intros a Hi. unfold local_bad. intros B. assert (0 <= a) by lia. rewrite u32_id in B by (unfold is_i32, is_u32, two31, two32 in *; lia). lia. }
  unfold initArray. rewrite wp_bind. unfold wp at 1, LocalToPhysAddr.
  destruct (local_bad s arr) eqn:B1; [apply R0_refl|]. apply U in B1; auto.
  rewrite wp_bind, wp_get, wp_bind, wp_throw_if. destruct (_ >=? mem_size s) eqn:B2; [apply R0_refl|].
  assert (X : forall s1, R s s1 -> wp (if fill =? 0 then ret tt
      else if v =? 0 then clear (arr + 4 * iv + 4 * copy) (fill * 4)
      else fill_cells (Z.to_nat fill) (arr + 4 * iv + 4 * copy) v) (fun _ s' => R s s') (fun _ s' => R0 s s') nomem s1).
  { intros s1 H1. assert (M : mem_size s1 = mem_size s) by (apply (R_size _ _ H1)). unfold wp. destruct (fill =? 0); [exact H1|].
    destruct (v =? 0).
    - destruct (clear_safe (arr + 4 * iv + 4 * copy) (fill * 4) s s1) as (s2 & -> & ?); auto; lia.
    - destruct (fill_cells_safe (Z.to_nat fill) (arr + 4 * iv + 4 * copy) v s s1) as (s2 & -> & ?); auto; lia. }
  rewrite wp_bind. destruct ((iv =? 0) && (copy =? 0)) eqn:B3.
  - rewrite wp_ret. apply X. now apply R_refl.
  - rewrite wp_bind. unfold wp at 1. destruct (local_bad s dat) eqn:B4; [apply R0_refl|]. apply U in B4; auto.
    rewrite wp_bind, wp_throw_if. destruct (_ >=? data_size s) eqn:B5; [apply R0_refl|].
    rewrite wp_bind. unfold wp at 1.
    destruct (copy_ivs_safe (Z.to_nat iv) arr dat arr s s (R_refl s Hs)) as (s1 & -> & R1 & M1); try lia.
    unfold wp at 1. destruct (move_safe (arr + 4 * iv) (dat + 4 * iv) (copy * 4) s s1 R1) as (s2 & -> & R2 & M2); try lia.
    now apply X.
Qed.

Lemma lift_bind A B (m : RM A) (k : A -> RM B) st : lift (bind m k) st = bind (lift m) (fun a => lift (k a)) st.
Proof. unfold lift, bind. destruct (m (rts st)) as [a s'| |]; reflexivity. Qed.
Lemma sa_lift_bind A B (m : RM A) (k : A -> RM B) st0 st :
  safe_at (bind (lift m) (fun a => lift (k a))) st0 st -> safe_at (lift (bind m k)) st0 st.
Proof. unfold safe_at, wp. now rewrite lift_bind. Qed.
Lemma sa_seq A B (m : IM A) (k : A -> IM B) st : safe_at m st st ->
  (forall a st1, Ri st st1 -> Ri st st1 -> safe_at (k a) st st1) -> safe_at (bind m k) st st.
Proof.
  intros Hm Hk. unfold safe_at in *. rewrite wp_bind. unfold wp in *. destruct (m st); auto. now apply Hk.
Qed.
Lemma rd32_eq st a : 0 <= a -> a + 4 <= mem_size (rts st) -> lift (rd32 a) st = Ok (load32 (mem (rts st)) a) st.
Proof. intros H1 H2. unfold lift, rd32. rewrite in_mem_true by lia. destruct st; reflexivity. Qed.

Section Safe.
Variables (fe : fenv) (nat_ : Z -> option native) (mi : meth).
Hypothesis HG : good_natives nat_.

Lemma access_safe st i acc : I (rts st) -> is_i32 (pri st) -> is_i32 (alt st) ->
  operands_in_range st (snd acc) -> access_of mi st i = Some acc -> safe_at (exec false fe nat_ mi i) st st.
Proof.
  intros Hs Hp Ha Ho E. assert (L : layout (rts st)) by apply Hs. unfold safe_at, wp.
  destruct (legal_dec (rts st) (fst acc ++ checked (snd acc))) as [HL|HL].
  - destruct (access_done fe nat_ mi st i acc L Ho E HL) as (m' & -> & Hm). unfold Ri. cbn [rts].
    apply R_set_mem; auto. intros x Hx. rewrite Hm.
    pose proof (touched_inside mi (rts st) acc st i L eq_refl Ho E HL) as T.
    destruct (snd acc) as [r a|a b|w a|w a v|a d|d a n|d a|d n v]; cbn [touched mem_after] in *; try reflexivity;
      inversion T as [|? ? T1 _]; subst; destruct T1 as [T1 T2]; cbn [fst snd] in *;
      match goal with |- (if ?b then _ else _) = _ => destruct b eqn:B; [lia|reflexivity] end.
  - destruct (access_refused fe nat_ mi st i acc L Ho E HL) as (st' & -> & Hr). unfold R0i. rewrite Hr. apply R0_refl.
Qed.

Ltac sf := repeat first
  [ apply safeI_ret | apply safeI_fail | apply safeI_getr | apply safeI_setr | apply safeI_sarith | apply safeI_sarith64
  | apply safeI_check_div | apply (proj1 (safeI_shift _ _)) | apply (proj1 (proj2 (safeI_shift _ _))) | apply (proj2 (proj2 (safeI_shift _ _)))
  | (apply safeI_undef; discriminate)
  | (apply safeI_bind; [|intros ?]) | apply safeI_if
  | (apply safeI_lift; first [apply safe_getCellValue | apply safe_setCellValue | apply safe_getFrameValue | apply safe_setFrameValue
      | apply safe_pushStack | apply safe_popStack | apply safe_push_list | apply safe_push_cells | apply safe_push_frame
      | apply safe_push_adr | apply safe_pop_n | apply safe_get | apply safe_pushTracker | apply safe_popTracker
      | apply safe_enterHeapScope | apply safe_leaveHeapScope | (apply safe_bind; [apply safe_setFrameValue|intros; apply safe_setFrameValue]) ])
  ].

Theorem exec_safe i st : I (rts st) -> is_i32 (pri st) -> is_i32 (alt st) -> operand_ok nat_ mi st i ->
  safe_at (exec false fe nat_ mi i) st st.
Proof.
  intros Hs Hp Ha Ho. assert (Hr : Ri st st) by (now apply R_refl).
  destruct i; cbn [operand_ok] in Ho.
  all: try (apply (fun H : safeI (exec false fe nat_ mi _) => H st st Hr); cbn [exec]; sf; fail).
  all: try (eapply access_safe; [assumption..| |cbn [access_of]; try (replace ((_ =? 1) || _ || _) with true by lia); reflexivity];
            repeat split; cbn [snd]; auto; unfold is_i32 in *; lia; fail).
  - (* STRB_I *) cbn [exec]. do 2 (eapply sa_bind; [reflexivity|]).
    assert (W : (w =? 1) || (w =? 2) || (w =? 4) = true \/ w <> 1 /\ w <> 2 /\ w <> 4) by lia. destruct W as [W|W].
    + change (safe_at (exec false fe nat_ mi (STRB_I w)) st st).
      eapply access_safe; [assumption..| |cbn [access_of]; rewrite W; reflexivity]. repeat split; cbn [snd]; auto; unfold is_i32 in *; lia.
    + replace (w =? 1) with false by lia. replace (w =? 2) with false by lia. replace (w =? 4) with false by lia.
      apply (fun H : safeI (bind _ _) => H st st Hr). sf. apply safeI_lift, safe_throwIfBadAddress.
  - (* MOVE *) apply (fun H : safeI (exec false fe nat_ mi _) => H st st Hr). destruct r; cbn [exec]; sf.
  - (* PUSH_I_I64 *) cbn [exec]. eapply sa_bind; [reflexivity|].
    apply sa_lift_bind, acquire64; auto. intros B1 B2.
    apply sa_lift_bind. eapply sa_bind; [apply rd32_eq; lia|]. 
    apply sa_lift_bind. apply sa_seq. { apply safeI_lift; [apply safe_pushStack|exact Hr]. }
    intros x st1 H1 H2. apply sa_lift_bind. eapply sa_bind; [apply rd32_eq; [lia|]|].
    { rewrite (R_size _ _ H2). lia. }
    apply safeI_lift; [apply safe_pushStack|exact H1].
  - (* STACK *) cbn [exec]. unfold safe_at, wp, lift. pose proof (safe_addStack_at _ _ Hs Ho) as X. unfold wp in X.
    destruct (addStack a (rts st)); auto.
  - (* HEAP *) cbn [exec]. apply sa_seq.
    + unfold safe_at, wp, lift. pose proof (safe_heapAlloc_at _ _ Hs Ho) as X. unfold wp in X.
      destruct (heapAlloc a (rts st)); auto. now destruct X as (_ & _ & ?).
    + intros x st1 H1 _. now apply safeI_setr.
  - (* CVT_I64 *) cbn [exec]. eapply sa_bind; [reflexivity|]. apply sa_seq.
    + apply sa_lift_bind, slot64; auto. intros B1 B2. apply sa_lift_bind, sa_seq; [now apply wr64_safe|].
      intros x st1 H1 _. apply (fun H : safeI (lift _) => H st st1 H1). apply safeI_lift.
      apply safe_bind; [apply safe_get|intros; apply safe_ret].
    + intros x st1 H1 _. now apply safeI_setr.
  - cbn [exec]. eapply sa_bind; [reflexivity|]. apply sa_seq.
    + apply sa_lift_bind, acquire64; auto. intros B1 B2. unfold safe_at, wp. rewrite rd64_eq by assumption. exact Hr.
    + intros x st1 H1 _. now apply safeI_setr.
  - cbn [exec]. eapply sa_bind; [reflexivity|]. apply sa_seq.
    + apply sa_lift_bind, acquire64; auto. intros B1 B2. unfold safe_at, wp. rewrite rd64_eq by assumption. exact Hr.
    + intros x st1 H1 _. now apply safeI_setr.
  - (* UN64 *) cbn [exec]. eapply sa_bind; [reflexivity|]. apply acquire64; auto. intros B1 B2.
    apply slot64; auto. intros B3 B4. eapply sa_bind; [now apply rd64_eq|].
    assert (X : exists w, (match op with Inv64 => ret (Z.lnot (load64 (mem (rts st)) (pri st)))
      | Neg64 => sarith64 false (- load64 (mem (rts st)) (pri st)) end) st = Ok w st).
    { destruct op; [eexists; reflexivity|]. unfold sarith64. destruct (is_i64b _); eexists; reflexivity. }
    destruct X as [w X]. eapply sa_bind; [exact X|]. apply sa_seq; [now apply wr64_safe|].
    intros x st1 H1 _. apply (fun H : safeI _ => H st st1 H1). sf.
  - (* BIN64 *) cbn [exec]. eapply sa_bind; [reflexivity|]. apply acquire64; auto. intros B1 B2.
    eapply sa_bind; [reflexivity|]. apply acquire64; auto. intros B3 B4.
    apply slot64; auto. intros B5 B6. eapply sa_bind; [now apply rd64_eq|]. eapply sa_bind; [now apply rd64_eq|].
    pose proof (eval_keeps op (load64 (mem (rts st)) (pri st)) (load64 (mem (rts st)) (alt st)) st) as K.
    destruct (eval_bin64 false op (load64 (mem (rts st)) (pri st)) (load64 (mem (rts st)) (alt st)) st) as [w st'|e st'|u] eqn:E.
    + subst st'. eapply sa_bind; [exact E|]. apply sa_seq; [now apply wr64_safe|].
      intros x st1 H1 _. apply (fun H : safeI _ => H st st1 H1). sf.
    + subst st'. eapply sa_fail; [exact E|]. apply (R_R0 _ _ Hr).
    + unfold safe_at. rewrite wp_bind. unfold wp. rewrite E. exact K.
  - (* STOR_S_C_I64 *) cbn [exec]. apply sa_lift_bind, slot64; auto. intros B1 B2. now apply wr64_safe.
  - (* STOR_S_PRI_I64 *) cbn [exec]. eapply sa_bind; [reflexivity|]. apply sa_lift_bind, acquire64; auto. intros B1 B2.
    apply sa_lift_bind, slot64; auto. intros B3 B4. apply sa_lift_bind. eapply sa_bind; [now apply rd64_eq|].
    now apply wr64_safe.
  - (* CMP64 *) cbn [exec]. eapply sa_bind; [reflexivity|]. apply acquire64; auto. intros B1 B2.
    eapply sa_bind; [reflexivity|]. apply acquire64; auto. intros B3 B4.
    eapply sa_bind; [now apply rd64_eq|]. eapply sa_bind; [now apply rd64_eq|]. now apply safeI_setr.
  - (* SYSREQ_C *) cbn [exec]. now apply invoke_safe.
  - (* SYSREQ_N *) cbn [exec]. destruct (nat_ n) as [nt|] eqn:E; [|congruence].
    assert (G : safeI (lift (pushStack k);;; invokeNative nat_ n;;; lift (pop_n (Z.to_nat (u32 (k + 1)))))).
    { sf. apply invoke_safe; [exact HG|congruence]. }
    destruct (n_fn nt) as [f|] eqn:F; [|now apply G]. destruct (n_repl nt) as [fs|]; [|now apply G].
    apply (fun H : safeI _ => H st st Hr). destruct fs; cbn [exec_fstack]; sf.
  - now apply genarray_safe.
  - (* INITARRAY *) destruct Ho as (O1 & O2 & O3 & O4 & O5 & O6 & O7 & O8). cbn [exec]. eapply sa_bind; [reflexivity|].
    unfold safe_at, wp, lift.
    assert (Hi : is_i32 (regv st r)) by (destruct r; assumption).
    pose proof (init_safe (regv st r) addr iv copy fill v (rts st) Hs O1 O2 O3 O4 O5 Hi O6 O7 O8) as X. unfold wp in X.
    fold (regv st r). destruct (initArray (regv st r) addr iv copy fill v (rts st)); auto.
Qed.
End Safe.
