(* Block copies of the machine against the runtime's, and what the runtime's operations leave alone. *)
From Verif Require Import Base Rt_Model Array_Model Interp_Model Rt_Spec Mem_Spec X64_Model X64_Spec.
From Verif Require Import Base_Proofs Rt_Proofs Mem_Proofs X64_Step X64_Arith.
From Coq Require Import ZifyBool Lia.
Ltac Zify.zify_post_hook ::= Z.div_mod_to_equations.

Lemma byte_of_load32 m a k : bytes_only m -> 0 <= k < 4 -> byte_of k (load32 m a) = m (a + k).
Proof.
  intros B K. unfold load32. rewrite byte_of_wrap32 by exact K.
  pose proof (B a) as B0. pose proof (B (a + 1)) as B1. pose proof (B (a + 2)) as B2. pose proof (B (a + 3)) as B3. unfold is_byte in *.
  assert (C : k = 0 \/ k = 1 \/ k = 2 \/ k = 3) by lia.
  destruct C as [-> | [-> | [-> | ->]]]; rewrite ?byte_of_0, ?byte_of_1, ?byte_of_2, ?byte_of_3; rewrite ?Z.add_0_r; lia.
Qed.
Ltac Zify.zify_post_hook ::= idtac.
Lemma copy_step m d s z : bytes_only m -> store32 m d (load32 m s) z = if (d <=? z) && (z <? d + 4) then m (s + (z - d)) else m z.
Proof. intros B. unfold store32. destruct ((d <=? z) && (z <? d + 4)) eqn:E; [|reflexivity]. apply byte_of_load32; [exact B|lia]. Qed.
Lemma bytes_store32 m a v : bytes_only m -> bytes_only (store32 m a v).
Proof. intros B z. unfold store32. destruct (_ && _); [apply byte_of_range|apply B]. Qed.

Section Copy.
Variables (base : Z) (env : rt).
Lemma copy_cells_exact k : forall s d m, bytes_only m -> 0 <= s -> 0 <= d -> s + 4 * Z.of_nat k <= mem_size env -> d + 4 * Z.of_nat k <= mem_size env ->
  d <= s \/ s + 4 * Z.of_nat k <= d ->
  exists m', copy_cells base env k (base + s) (base + d) m = Some m' /\
    (forall z, m' z = if (d <=? z) && (z <? d + 4 * Z.of_nat k) then m (s + (z - d)) else m z) /\ bytes_only m'.
Proof.
  induction k as [|k IH]; intros s d m B S D S1 D1 C; cbn [copy_cells].
  - exists m. split; [reflexivity|]. split; [|exact B]. intros z. destruct ((d <=? z) && (z <? d + 4 * Z.of_nat 0)) eqn:E; [lia|reflexivity].
  - rewrite !ok_at_true by lia. cbn [andb]. replace (base + s - base) with s by lia. replace (base + d - base) with d by lia.
    rewrite <- !Z.add_assoc. destruct (IH (s + 4) (d + 4) (store32 m d (load32 m s))) as (m' & E & R & BM); try lia; [now apply bytes_store32|].
    exists m'. split; [exact E|]. split; [|exact BM]. intros z. rewrite R. rewrite !copy_step by exact B.
    destruct ((d + 4 <=? z) && (z <? d + 4 + 4 * Z.of_nat k)) eqn:E1.
    + replace ((d <=? z) && (z <? d + 4 * Z.of_nat (Datatypes.S k))) with true by lia.
      replace (s + 4 + (z - (d + 4))) with (s + (z - d)) by lia.
      replace ((d <=? s + (z - d)) && (s + (z - d) <? d + 4)) with false by lia. reflexivity.
    + destruct ((d <=? z) && (z <? d + 4)) eqn:E2.
      * replace ((d <=? z) && (z <? d + 4 * Z.of_nat (Datatypes.S k))) with true by lia. reflexivity.
      * replace ((d <=? z) && (z <? d + 4 * Z.of_nat (Datatypes.S k))) with false by lia. reflexivity.
Qed.
Lemma copy_bytes_exact k : forall s d m, 0 <= s -> 0 <= d -> s + Z.of_nat k <= mem_size env -> d + Z.of_nat k <= mem_size env ->
  d <= s \/ s + Z.of_nat k <= d ->
  exists m', copy_bytes base env k (base + s) (base + d) m = Some m' /\
    (forall z, m' z = if (d <=? z) && (z <? d + Z.of_nat k) then m (s + (z - d)) else m z).
Proof.
  induction k as [|k IH]; intros s d m S D S1 D1 C; cbn [copy_bytes].
  - exists m. split; [reflexivity|]. intros z. destruct ((d <=? z) && (z <? d + Z.of_nat 0)) eqn:E; [lia|reflexivity].
  - rewrite !ok_at_true by lia. cbn [andb]. replace (base + s - base) with s by lia. replace (base + d - base) with d by lia.
    rewrite <- !Z.add_assoc. destruct (IH (s + 1) (d + 1) (fill_bytes m d 1 (m s))) as (m' & E & R); try lia.
    exists m'. split; [exact E|]. intros z. rewrite R. unfold fill_bytes.
    destruct ((d + 1 <=? z) && (z <? d + 1 + Z.of_nat k)) eqn:E1.
    + replace ((d <=? z) && (z <? d + Z.of_nat (Datatypes.S k))) with true by lia.
      replace (s + 1 + (z - (d + 1))) with (s + (z - d)) by lia.
      replace ((d <=? s + (z - d)) && (s + (z - d) <? d + 1)) with false by lia. reflexivity.
    + destruct ((d <=? z) && (z <? d + 1)) eqn:E2.
      * replace ((d <=? z) && (z <? d + Z.of_nat (Datatypes.S k))) with true by lia. f_equal. lia.
      * replace ((d <=? z) && (z <? d + Z.of_nat (Datatypes.S k))) with false by lia. reflexivity.
Qed.
(* rep stosd makes the same stores as the runtime's loop. *)
Lemma store_fill k : forall d v w m r r', mem_size env = mem_size r -> wrap32 w = v -> (forall z, m z = mem r z) -> fill_cells k d v r = Ok tt r' ->
  (exists m', store_cells base env k (base + d) w m = Some m' /\ forall z, m' z = mem r' z) /\
  r' = set_mem (mem r') r /\ (k = O \/ 0 <= d /\ d + 4 * Z.of_nat k <= mem_size r).
Proof.
  induction k as [|k IH]; intros d v w m r r' MS V M E; cbn [fill_cells store_cells] in *.
  - injection E as <-. split; [exists m; auto|]. split; [now destruct r|auto].
  - apply bind_inv in E. destruct E as (u & r1 & E1 & E2). apply wr32_inv in E1. destruct E1 as (B1 & B2 & ->).
    rewrite ok_at_true by lia. replace (base + d - base) with d by lia. rewrite V, <- Z.add_assoc.
    destruct (IH (d + 4) v w (store32 m d v) (set_mem (store32 (mem r) d v) r) r' MS V) as (E3 & E4 & E5); [|exact E2|].
    + intros z. cbn [mem set_mem]. unfold store32. now rewrite M.
    + split; [exact E3|]. split; [rewrite E4; reflexivity|]. right. cbn [mem_size set_mem] in E5. lia.
Qed.
(* Storing zeros is clearing. *)
Lemma store_zero k : forall d m, 0 <= d -> d + 4 * Z.of_nat k <= mem_size env ->
  exists m', store_cells base env k (base + d) 0 m = Some m' /\ forall z, m' z = fill_bytes m d (4 * Z.of_nat k) 0 z.
Proof.
  induction k as [|k IH]; intros d m D B; cbn [store_cells].
  - exists m. split; [reflexivity|]. intros z. unfold fill_bytes. destruct ((d <=? z) && (z <? d + 4 * Z.of_nat 0)) eqn:E; [lia|reflexivity].
  - rewrite ok_at_true by lia. replace (base + d - base) with d by lia. rewrite <- Z.add_assoc.
    destruct (IH (d + 4) (store32 m d (wrap32 0))) as (m' & E & R); try lia. exists m'. split; [exact E|]. intros z. rewrite R. unfold fill_bytes, store32.
    change (wrap32 0) with 0.
    destruct ((d + 4 <=? z) && (z <? d + 4 + 4 * Z.of_nat k)) eqn:E1.
    + replace ((d <=? z) && (z <? d + 4 * Z.of_nat (Datatypes.S k))) with true by lia. reflexivity.
    + destruct ((d <=? z) && (z <? d + 4)) eqn:E2.
      * replace ((d <=? z) && (z <? d + 4 * Z.of_nat (Datatypes.S k))) with true by lia. unfold byte_of. rewrite Z.div_0_l; [reflexivity|]. apply Z.pow_nonzero; lia.
      * replace ((d <=? z) && (z <? d + 4 * Z.of_nat (Datatypes.S k))) with false by lia. reflexivity.
Qed.
End Copy.

(* ---- What stays the same ---- *)
Section Same.
Variable g : rt -> Z.
Hypothesis Gm : forall m s, g (set_mem m s) = g s.
Hypothesis Gh : forall h s, g (set_hp h s) = g s.
Hypothesis Gc : forall c s, g (set_hp_scope c s) = g s.
Definition st {A} (m : RM A) : Prop := forall s a s', m s = Ok a s' -> g s' = g s.
Lemma st_bind A B (m : RM A) (k : A -> RM B) : st m -> (forall a, st (k a)) -> st (bind m k).
Proof. intros M K s b s' E. apply bind_inv in E. destruct E as (a & s1 & E1 & E2). apply M in E1. apply K in E2. congruence. Qed.
Lemma st_ret A (a : A) : st (ret a). Proof. intros s b s' E. unfold ret in E. congruence. Qed.
Lemma st_fail A e : st (@fail rt A e). Proof. discriminate. Qed.
Lemma st_undef A e : st (@undef rt A e). Proof. discriminate. Qed.
Lemma st_get A (f : rt -> A) : st (get f). Proof. intros s b s' E. unfold get in E. congruence. Qed.
Lemma st_if A (b : bool) (m1 m2 : RM A) : st m1 -> st m2 -> st (if b then m1 else m2). Proof. now destruct b. Qed.
Lemma st_throw b e : st (throw_if b e). Proof. destruct b; [apply st_fail|apply st_ret]. Qed.
Lemma st_assert b : st (assert_ b). Proof. destruct b; [apply st_ret|apply st_undef]. Qed.
Lemma st_rd32 a : st (rd32 a). Proof. intros s b s' E. unfold rd32 in E. destruct (in_mem s a 4); [|discriminate]. congruence. Qed.
Lemma st_rd64 a : st (rd64 a). Proof. intros s b s' E. unfold rd64 in E. destruct (in_mem s a 8); [|discriminate]. congruence. Qed.
Lemma st_wr32 a v : st (wr32 a v). Proof. intros s b s' E. unfold wr32 in E. destruct (in_mem s a 4); [|discriminate]. injection E as _ <-. apply Gm. Qed.
Lemma st_wr64 a v : st (wr64 a v). Proof. intros s b s' E. unfold wr64 in E. destruct (in_mem s a 8); [|discriminate]. injection E as _ <-. apply Gm. Qed.
Lemma st_wr16 a v : st (wr16 a v). Proof. intros s b s' E. unfold wr16 in E. destruct (in_mem s a 2); [|discriminate]. injection E as _ <-. apply Gm. Qed.
Lemma st_wr8 a v : st (wr8 a v). Proof. intros s b s' E. unfold wr8 in E. destruct (in_mem s a 1); [|discriminate]. injection E as _ <-. apply Gm. Qed.
Lemma st_clear a v : st (clear a v).
Proof. intros s b s' E. unfold clear in E. destruct (v <=? 0); [congruence|]. destruct (in_mem s a v); [|discriminate]. injection E as _ <-. apply Gm. Qed.
Lemma st_move d a v : st (move d a v).
Proof. intros s b s' E. unfold move in E. destruct (v <=? 0); [congruence|]. destruct (in_mem s a v && in_mem s d v); [|discriminate]. injection E as _ <-. apply Gm. Qed.
Lemma st_bad a : st (throwIfBadAddress a). Proof. intros s b s' E. apply tiba_inv in E. destruct E as (_ & _ & ->). reflexivity. Qed.
Lemma st_local a : st (LocalToPhysAddr a). Proof. intros s b s' E. unfold LocalToPhysAddr in E. destruct (local_bad s a); [discriminate|]. congruence. Qed.
Lemma st_slot o : st (acquireInt64Slot o). Proof. intros s b s' E. apply slot_inv in E. destruct E as (_ & _ & ->). reflexivity. Qed.
Lemma st_put_hp h : st (put (set_hp h)). Proof. intros s b s' E. unfold put in E. injection E as _ <-. apply Gh. Qed.
Lemma st_put_scope h : st (put (set_hp_scope h)). Proof. intros s b s' E. unfold put in E. injection E as _ <-. apply Gc. Qed.
Ltac sst := repeat first [apply st_ret | apply st_fail | apply st_undef | apply st_get | apply st_throw | apply st_assert | apply st_rd32 | apply st_rd64 | apply st_wr32
  | apply st_wr64 | apply st_wr16 | apply st_wr8 | apply st_clear | apply st_move | apply st_bad | apply st_local | apply st_slot | apply st_put_hp | apply st_put_scope
  | apply st_if | (apply st_bind; [|intros ?]) ].
Lemma st_acquire a n : st (acquireAddrRange a n). Proof. unfold acquireAddrRange. sst. Qed.
Lemma st_acquire64 a : st (acquireInt64Addr a). Proof. apply st_acquire. Qed.
Lemma st_getCell a : st (getCellValue a). Proof. unfold getCellValue. sst. Qed.
Lemma st_setCell a v : st (setCellValue a v). Proof. unfold setCellValue. sst. Qed.
Lemma st_getFrame a : st (getFrameValue a). Proof. unfold getFrameValue. sst. Qed.
Lemma st_setFrame a v : st (setFrameValue a v). Proof. unfold setFrameValue. sst. Qed.
Lemma st_fill n : forall a v, st (fill_cells n a v). Proof. induction n; intros; cbn [fill_cells]; sst; auto. Qed.
Lemma st_ivs n : forall d a x, st (copy_ivs n d a x). Proof. induction n; intros; cbn [copy_ivs]; sst; auto. Qed.
Lemma st_rd_cells n : forall a, st (rd_cells a n). Proof. induction n; intros; cbn [rd_cells]; sst; auto. Qed.
Lemma st_init a d iv c f v : st (initArray a d iv c f v). Proof. unfold initArray. sst; first [apply st_ivs|apply st_fill]. Qed.
Lemma st_heapAlloc n : st (heapAlloc n). Proof. unfold heapAlloc. sst. Qed.
Lemma st_enter : st enterHeapScope. Proof. unfold enterHeapScope. sst; try apply st_heapAlloc. Qed.
Lemma st_leave : st leaveHeapScope. Proof. unfold leaveHeapScope. sst. Qed.
Lemma st_pushTracker n : st (pushTracker n). Proof. unfold pushTracker. sst. Qed.
Lemma st_popTracker : st popTrackerAndSetHeap. Proof. unfold popTrackerAndSetHeap. sst. Qed.
Lemma st_inner dl : forall base cur data, st (inner_iv base dl cur data).
Proof.
  induction dl as [|d rest IH]; intros base cur data; [apply st_ret|]. cbn [inner_iv].
  assert (L1 : forall k w da, st ((fix loop (k : nat) (w da : Z) : RM (Z * Z) := match k with O => ret (wrap32 (cur + d), da)
      | S k' => wr32 (base + 4 * w) (wrap32 ((da - w) * 4));;; loop k' (wrap32 (w + 1)) (wrap32 (da + hd 0 rest)) end) k w da)).
  { induction k; intros; sst. apply IHk. }
  destruct rest as [|d2 [|d3 rest']]; [apply L1|apply L1|].
  generalize (Z.to_nat d) as k. generalize (wrap32 (cur + d)) as c. revert data. generalize cur as w. intros w data c k. revert w c data.
  induction k as [|k IHk]; intros; sst. - apply IH. - apply IHk.
Qed.
Lemma st_absolute addr dims dim : forall iv data, st (absolute_iv addr dims dim iv data).
Proof.
  induction dim as [|dim IH]; intros iv data; [apply st_ret|]. cbn [absolute_iv]. cbv zeta.
  generalize (Z.to_nat (dim_at dims (S dim))) as k. intro k. generalize 0 as i. generalize (wrap32 (iv + dim_at dims (S dim) * 4)) as iv'.
  revert data. induction k as [|k IHk]; intros data iv' i; [apply st_ret|].
  apply st_bind; [apply IH|intros [[off iv''] data'']]. apply st_bind; [apply st_wr32|intros _]. apply IHk.
Qed.
Lemma st_full dims z f : (forall v, st (f v)) -> st (generateFullArray dims z f).
Proof.
  intros F. unfold generateFullArray. destruct dims as [|d0 ds]; [apply st_undef|]. apply st_if; [apply st_fail|].
  destruct (full_array_size ds (u32 d0) 0) as [[cells iv]|]; [|apply st_fail]. sst; try apply F; try apply st_pushTracker.
  - apply st_absolute.
  - match goal with |- st (let '(_, _) := ?p in _) => destruct p as [[? ?] ?] end. apply st_assert.
  - unfold relative_ivs. sst. apply st_inner.
Qed.
Lemma st_generate n k z : st (generateArray n k z).
Proof. unfold generateArray. sst; try apply st_pushTracker; try apply st_rd_cells. apply st_full. intros. apply st_wr32. Qed.
End Same.
