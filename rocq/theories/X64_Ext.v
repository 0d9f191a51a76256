(* The interpreter looks at the plugin's memory byte by byte: equal bytes give equal results. *)
From Verif Require Import Base Rt_Model Array_Model Interp_Model Rt_Spec Mem_Spec X64_Model X64_Spec.
From Verif Require Import Base_Proofs.
From Coq Require Import ZifyBool Lia.
Ltac Zify.zify_post_hook ::= idtac.

Definition rel (s s' : rt) : Prop := same_rt s s' /\ bytes_only (mem s).
Definition relr {A} (r r' : res rt A) : Prop :=
  match r, r' with
  | Ok a s, Ok b s' => a = b /\ rel s s'
  | Fail e s, Fail e' s' => e = e' /\ same_rt s s'
  | UB u, UB u' => u = u'
  | _, _ => False
  end.
Definition resp {A} (m : RM A) : Prop := forall s s', rel s s' -> relr (m s) (m s').

Lemma resp_bind A B (m : RM A) (k : A -> RM B) : resp m -> (forall a, resp (k a)) -> resp (bind m k).
Proof.
  intros Hm Hk s s' R. specialize (Hm s s' R). unfold bind. destruct (m s), (m s'); cbn in *; try contradiction; auto.
  destruct Hm as [-> H]. now apply Hk.
Qed.
Lemma resp_ret A (a : A) : resp (ret a). Proof. intros s s' R. split; auto. Qed.
Lemma resp_fail A e : resp (@fail rt A e). Proof. intros s s' [R _]. split; auto. Qed.
Lemma resp_undef A u : resp (@undef rt A u). Proof. intros s s' R. reflexivity. Qed.
Lemma resp_throw c e : resp (throw_if c e). Proof. destruct c; [apply resp_fail|apply resp_ret]. Qed.
Lemma resp_assert c : resp (assert_ c). Proof. destruct c; [apply resp_ret|apply resp_undef]. Qed.
Lemma resp_if A (c : bool) (m n : RM A) : resp m -> resp n -> resp (if c then m else n).
Proof. destruct c; auto. Qed.
(* A step that looks at the state: the two states differ in no field but the memory. *)
Lemma resp_state A (m : RM A) :
  (forall m0 m1 sz d h p t f c hs da, (forall a, m1 a = m0 a) -> bytes_only m0 ->
     relr (m (mkRt m0 sz d h p t f c hs da)) (m (mkRt m1 sz d h p t f c hs da))) -> resp m.
Proof.
  intros H [m0 sz d h p t f c hs da] [m1 sz' d' h' p' t' f' c' hs' da'] [[[] [(H1 & H2 & H3 & H4) H5]] B].
  cbn in *. subst. apply H; auto.
Qed.
Lemma rel_intro m0 m1 sz d h p t f c hs da : (forall a, m1 a = m0 a) -> bytes_only m0 ->
  rel (mkRt m0 sz d h p t f c hs da) (mkRt m1 sz d h p t f c hs da).
Proof. intros. split; [|auto]. split; [constructor; reflexivity|]. split; [repeat split|auto]. Qed.
Lemma same_intro m0 m1 sz d h p t f c hs da : (forall a, m1 a = m0 a) ->
  same_rt (mkRt m0 sz d h p t f c hs da) (mkRt m1 sz d h p t f c hs da).
Proof. intros. split; [constructor; reflexivity|]. split; [repeat split|auto]. Qed.

Lemma store32_same m0 m1 a v : (forall x, m1 x = m0 x) -> forall x, store32 m1 a v x = store32 m0 a v x.
Proof. intros H x. unfold store32. now rewrite H. Qed.
Lemma store64_same m0 m1 a v : (forall x, m1 x = m0 x) -> forall x, store64 m1 a v x = store64 m0 a v x.
Proof. intros H x. unfold store64. now rewrite H. Qed.
Lemma fill_same m0 m1 a n v : (forall x, m1 x = m0 x) -> forall x, fill_bytes m1 a n v x = fill_bytes m0 a n v x.
Proof. intros H x. unfold fill_bytes. now rewrite H. Qed.
Lemma move_same m0 m1 d a n : (forall x, m1 x = m0 x) -> forall x, move_bytes m1 d a n x = move_bytes m0 d a n x.
Proof. intros H x. unfold move_bytes. now rewrite !H. Qed.
Lemma bytes_store32 m a v : bytes_only m -> bytes_only (store32 m a v).
Proof. intros H x. unfold store32. destruct (_ && _); [apply byte_of_range|apply H]. Qed.
Lemma bytes_store64 m a v : bytes_only m -> bytes_only (store64 m a v).
Proof. intros H x. unfold store64. destruct (_ && _); [apply byte_of_range|apply H]. Qed.
Lemma bytes_fill m a n v : is_byte v -> bytes_only m -> bytes_only (fill_bytes m a n v).
Proof. intros V H x. unfold fill_bytes. destruct (_ && _); auto. Qed.
Lemma bytes_move m d a n : bytes_only m -> bytes_only (move_bytes m d a n).
Proof. intros H x. unfold move_bytes. destruct (_ && _); apply H. Qed.
Lemma load32_same m0 m1 a : (forall x, m1 x = m0 x) -> load32 m1 a = load32 m0 a.
Proof. intros H. apply load32_ext. auto. Qed.
Lemma load64_same m0 m1 a : (forall x, m1 x = m0 x) -> load64 m1 a = load64 m0 a.
Proof. intros H. apply load64_ext. auto. Qed.

Ltac rs := apply resp_state; intros m0 m1 sz d h p t f c hs da E B;
  cbn [mem mem_size data_size hp sp stp frm hp_scope heap_scopes direct_arrays set_mem set_hp set_sp set_frm set_hp_scope].
Ltac fin := first [ now apply same_intro | apply rel_intro; [first [ now apply store32_same | now apply store64_same | now apply fill_same | now apply move_same | assumption ]
  | first [ now apply bytes_store32 | now apply bytes_store64 | now apply bytes_move | assumption | (apply bytes_fill; [|assumption]) ]] ].

Lemma resp_get A (g : rt -> A) : (forall m0 m1 sz d h p t f c hs da, g (mkRt m0 sz d h p t f c hs da) = g (mkRt m1 sz d h p t f c hs da)) -> resp (get g).
Proof. intros G. rs. split; [apply G|fin]. Qed.
Lemma resp_gets B (k : rt -> RM B) :
  (forall m0 m1 sz d h p t f c hs da, (forall a, m1 a = m0 a) -> bytes_only m0 ->
     relr (k (mkRt m0 sz d h p t f c hs da) (mkRt m0 sz d h p t f c hs da)) (k (mkRt m1 sz d h p t f c hs da) (mkRt m1 sz d h p t f c hs da))) ->
  resp (bind (get (fun s => s)) k).
Proof. intros H. apply resp_state. intros. unfold bind, get. now apply H. Qed.
(* The continuation only uses fields of the state it is given. *)
Lemma resp_getf B (k : rt -> RM B) :
  (forall s, resp (k s)) -> (forall m0 m1 sz d h p t f c hs da, k (mkRt m0 sz d h p t f c hs da) = k (mkRt m1 sz d h p t f c hs da)) ->
  resp (bind (get (fun s => s)) k).
Proof.
  intros H G. apply resp_gets. intros. rewrite (G m0 m1). apply H. now apply rel_intro.
Qed.
Lemma resp_put_hp v : resp (put (set_hp v)). Proof. rs. split; [reflexivity|fin]. Qed.
Lemma resp_put_sp v : resp (put (set_sp v)). Proof. rs. split; [reflexivity|fin]. Qed.
Lemma resp_put_frm v : resp (put (set_frm v)). Proof. rs. split; [reflexivity|fin]. Qed.
Lemma resp_put_scope v : resp (put (set_hp_scope v)). Proof. rs. split; [reflexivity|fin]. Qed.
Lemma resp_rd32 a : resp (rd32 a).
Proof. rs. unfold rd32, in_mem; cbn [mem mem_size]. destruct (_ && _); [|reflexivity]. split; [symmetry; now apply load32_same|fin]. Qed.
Lemma resp_rd64 a : resp (rd64 a).
Proof. rs. unfold rd64, in_mem; cbn [mem mem_size]. destruct (_ && _); [|reflexivity]. split; [symmetry; now apply load64_same|fin]. Qed.
Lemma resp_wr32 a v : resp (wr32 a v).
Proof. rs. unfold wr32, in_mem; cbn [mem mem_size]. destruct (_ && _); [|reflexivity]. split; [reflexivity|fin]. Qed.
Lemma resp_wr64 a v : resp (wr64 a v).
Proof. rs. unfold wr64, in_mem; cbn [mem mem_size]. destruct (_ && _); [|reflexivity]. split; [reflexivity|fin]. Qed.
Lemma resp_wr8 a v : resp (wr8 a v).
Proof.
  rs. unfold wr8, in_mem; cbn [mem mem_size]. destruct (_ && _); [|reflexivity]. split; [reflexivity|fin].
  unfold is_byte. apply Z.mod_pos_bound. lia.
Qed.
Lemma resp_wr16 a v : resp (wr16 a v).
Proof.
  rs. unfold wr16, in_mem; cbn [mem mem_size]. destruct (_ && _); [|reflexivity]. split; [reflexivity|].
  apply rel_intro; cbn [write_bytes]; intros x.
  - rewrite E. reflexivity.
  - destruct (x =? a + 1); [apply byte_of_range|]. destruct (x =? a); [apply byte_of_range|apply B].
Qed.
Lemma resp_clear a n : resp (clear a n).
Proof.
  rs. unfold clear, in_mem; cbn [mem mem_size]. destruct (n <=? 0); [split; [reflexivity|fin]|]. destruct (_ && _); [|reflexivity].
  split; [reflexivity|fin]. unfold is_byte. lia.
Qed.
Lemma resp_move dst a n : resp (move dst a n).
Proof.
  rs. unfold move, in_mem; cbn [mem mem_size]. destruct (n <=? 0); [split; [reflexivity|fin]|]. destruct (_ && _); [|reflexivity].
  split; [reflexivity|fin].
Qed.
Lemma resp_tiba a : resp (throwIfBadAddress a).
Proof. rs. unfold throwIfBadAddress, bad_address. cbn [hp sp stp]. destruct (_ || _); split; auto; fin. Qed.
Lemma resp_local a : resp (LocalToPhysAddr a).
Proof. rs. unfold LocalToPhysAddr, local_bad. cbn [hp sp mem_size]. destruct (_ || _); split; auto; fin. Qed.
Lemma resp_slot o : resp (acquireInt64Slot o).
Proof. rs. unfold acquireInt64Slot, bad_address. cbn [hp sp stp frm]. destruct (_ || _ || _); [reflexivity|]. split; auto; fin. Qed.

Ltac rp := repeat first
  [ apply resp_ret | apply resp_fail | apply resp_undef | apply resp_throw | apply resp_assert | apply resp_if
  | apply resp_put_hp | apply resp_put_sp | apply resp_put_frm | apply resp_put_scope | apply resp_rd32 | apply resp_rd64
  | apply resp_wr32 | apply resp_wr64 | apply resp_wr8 | apply resp_wr16 | apply resp_clear | apply resp_move | apply resp_tiba | apply resp_local
  | apply resp_slot
  | (apply resp_getf; [intros ?|reflexivity])
  | (apply resp_get; reflexivity)
  | (apply resp_bind; [|intros ?]) ].
Lemma resp_acquire a n : resp (acquireAddrRange a n). Proof. unfold acquireAddrRange. rp. Qed.
Lemma resp_push v : resp (pushStack v). Proof. unfold pushStack. rp. Qed.
Lemma resp_pop : resp popStack. Proof. unfold popStack. rp. Qed.
Lemma resp_getf_ o : resp (getFrameValue o). Proof. unfold getFrameValue. rp. Qed.
Lemma resp_setf_ o v : resp (setFrameValue o v). Proof. unfold setFrameValue. rp. Qed.
Lemma resp_getc a : resp (getCellValue a). Proof. unfold getCellValue. rp. Qed.
Lemma resp_setc a v : resp (setCellValue a v). Proof. unfold setCellValue. rp. Qed.
Lemma resp_heap n : resp (heapAlloc n). Proof. unfold heapAlloc. rp. Qed.
Lemma resp_add n : resp (addStack n). Proof. unfold addStack. rp. Qed.
Lemma resp_ptrk : resp popTrackerAndSetHeap. Proof. unfold popTrackerAndSetHeap. rp. Qed.
Lemma resp_trk n : resp (pushTracker n). Proof. unfold pushTracker. rp. Qed.
Lemma resp_ehs : resp enterHeapScope. Proof. unfold enterHeapScope. rp; apply resp_heap. Qed.
Lemma resp_lhs : resp leaveHeapScope. Proof. unfold leaveHeapScope. rp. Qed.

Lemma resp_inner b dl : forall cur dat, resp (inner_iv b dl cur dat).
Proof.
  induction dl as [|x rest IH]; intros cur dat; [apply resp_ret|]. cbn [inner_iv]. destruct rest as [|y [|z rest]].
  - generalize cur at 2. generalize dat. generalize (Z.to_nat x). intros k. induction k as [|k IHk]; intros da w; [apply resp_ret|].
    apply resp_bind; [apply resp_wr32|intros _]. apply IHk.
  - generalize cur at 2. generalize dat. generalize (Z.to_nat x). intros k. induction k as [|k IHk]; intros da w; [apply resp_ret|].
    apply resp_bind; [apply resp_wr32|intros _]. apply IHk.
  - generalize cur at 1. generalize (wrap32 (cur + x)). generalize dat. generalize (Z.to_nat x). intros k. induction k as [|k IHk]; intros da c w; [apply resp_ret|].
    apply resp_bind; [apply resp_wr32|intros _]. apply resp_bind; [apply IH|intros r]. apply IHk.
Qed.
Lemma resp_abs ad dims dim : forall iv dat, resp (absolute_iv ad dims dim iv dat).
Proof.
  induction dim as [|d IH]; intros iv dat; [apply resp_ret|]. cbn [absolute_iv].
  generalize (wrap32 (iv + dim_at dims (S d) * 4)). generalize dat. generalize 0 at 1. generalize (Z.to_nat (dim_at dims (S d))).
  intros k. induction k as [|k IHk]; intros i da iv'; [apply resp_ret|].
  apply resp_bind; [apply IH|intros [[off iv''] data'']]. apply resp_bind; [apply resp_wr32|intros _]. apply IHk.
Qed.
Lemma resp_full dims z pr : (forall v, resp (pr v)) -> resp (generateFullArray dims z pr).
Proof.
  intros P. destruct dims as [|d0 ds]; [apply resp_undef|]. unfold generateFullArray. apply resp_if; [apply resp_fail|].
  destruct (full_array_size ds (u32 d0) 0) as [[cells iv]|]; [|apply resp_fail]. apply resp_if; [apply resp_fail|]. cbv zeta.
  apply resp_getf; [intros s|reflexivity]. apply resp_if; [apply resp_fail|].
  apply resp_bind; [apply resp_throw|intros _]. apply resp_bind; [apply resp_if; [apply resp_clear|apply resp_ret]|intros _].
  apply resp_bind.
  { apply resp_if.
    - apply resp_bind; [apply resp_abs|intros [[a b] c]]. apply resp_assert.
    - apply resp_bind; [unfold relative_ivs; apply resp_bind; [apply resp_inner|intros r; apply resp_ret]|intros offs; apply resp_assert]. }
  intros _. apply resp_bind; [apply P|intros _]. apply resp_bind; [apply resp_put_hp|intros _].
  apply resp_if; [apply resp_ret|apply resp_trk].
Qed.
Lemma resp_rdcells n : forall a, resp (rd_cells a n).
Proof. induction n as [|n IH]; intros a; [apply resp_ret|]. cbn [rd_cells]. rp. apply IH. Qed.
Lemma resp_gen n stk z : resp (generateArray n stk z).
Proof.
  unfold generateArray. apply resp_if.
  - rp.
  - apply resp_bind; [apply resp_rdcells|intros dims]. apply resp_full. intros. apply resp_wr32.
Qed.
Lemma resp_copyivs n : forall d s a, resp (copy_ivs n d s a).
Proof. induction n as [|n IH]; intros; [apply resp_ret|]. cbn [copy_ivs]. rp. apply IH. Qed.
Lemma resp_fillcells n : forall d v, resp (fill_cells n d v).
Proof. induction n as [|n IH]; intros; [apply resp_ret|]. cbn [fill_cells]. rp. apply IH. Qed.
Lemma resp_init a b c d e v : resp (initArray a b c d e v).
Proof. unfold initArray. rp; first [apply resp_copyivs|apply resp_fillcells]. Qed.

Section Exec.
Variables (strict : bool) (fe : fenv) (nat_ : Z -> option native) (mi : meth).
Hypothesis NAT : natives_ok nat_.

Lemma resp_pushlist l : resp (push_list l).
Proof. induction l; cbn [push_list]; [apply resp_ret|]. apply resp_bind; [apply resp_push|intros; assumption]. Qed.
Lemma resp_pushcells l : resp (push_cells l).
Proof. induction l; cbn [push_cells]; [apply resp_ret|]. apply resp_bind; [apply resp_getc|intros]. apply resp_bind; [apply resp_push|intros; assumption]. Qed.
Lemma resp_pushframe l : resp (push_frame mi l).
Proof. induction l; cbn [push_frame]; [apply resp_ret|]. apply resp_bind; [apply resp_getf_|intros]. apply resp_bind; [apply resp_push|intros; assumption]. Qed.
Lemma resp_pushadr l : resp (push_adr mi l).
Proof. induction l; cbn [push_adr]; [apply resp_ret|]. apply resp_bind; [apply resp_get; reflexivity|intros]. apply resp_bind; [apply resp_push|intros; assumption]. Qed.
Lemma resp_popn n : resp (pop_n n).
Proof. induction n; cbn [pop_n]; [apply resp_ret|]. apply resp_bind; [apply resp_pop|intros; assumption]. Qed.

(* The same for interpreter states. *)
Definition reli (s s' : ist) : Prop := rel (rts s) (rts s') /\ pri s' = pri s /\ alt s' = alt s.
Definition relri {A} (r r' : res ist A) : Prop :=
  match r, r' with
  | Ok a s, Ok b s' => a = b /\ reli s s'
  | Fail e s, Fail e' s' => e = e' /\ same_rt (rts s) (rts s')
  | UB u, UB u' => u = u'
  | _, _ => False
  end.
Definition respi {A} (m : IM A) : Prop := forall s s', reli s s' -> relri (m s) (m s').
Lemma respi_bind A B (m : IM A) (k : A -> IM B) : respi m -> (forall a, respi (k a)) -> respi (bind m k).
Proof.
  intros Hm Hk s s' R. specialize (Hm s s' R). unfold bind. destruct (m s), (m s'); cbn in *; try contradiction; auto.
  destruct Hm as [-> H]. now apply Hk.
Qed.
Lemma respi_ret A (a : A) : respi (ret a). Proof. intros s s' R. split; auto. Qed.
Lemma respi_fail A e : respi (@fail ist A e). Proof. intros s s' R. split; [reflexivity|exact (proj1 (proj1 R))]. Qed.
Lemma respi_undef A u : respi (@undef ist A u). Proof. intros s s' R. reflexivity. Qed.
Lemma respi_if A (c : bool) (m n : IM A) : respi m -> respi n -> respi (if c then m else n).
Proof. destruct c; auto. Qed.
Lemma respi_lift A (m : RM A) : resp m -> respi (lift m).
Proof.
  intros H [s p a] [s' p' a'] (R & X & Y). cbn in R, X, Y. subst. specialize (H s s' R). unfold lift. cbn [rts pri alt].
  destruct (m s), (m s'); cbn in *; try contradiction; auto; destruct H; auto. split; auto. split; auto.
Qed.
Lemma respi_getr r : respi (getr r).
Proof. intros s s' (R & X & Y). split; [destruct r; auto|]. split; auto. Qed.
Lemma respi_setr r v : respi (Interp_Model.setr r v).
Proof. intros s s' (R & X & Y). split; [reflexivity|]. destruct r; split; auto. Qed.
Lemma respi_sarith z : respi (sarith strict z).
Proof. unfold sarith. apply respi_if; [apply respi_ret|]. destruct strict; [apply respi_undef|apply respi_ret]. Qed.
Lemma respi_sarith64 z : respi (sarith64 strict z).
Proof. unfold sarith64. apply respi_if; [apply respi_ret|]. destruct strict; [apply respi_undef|apply respi_ret]. Qed.

Lemma respi_native n : respi (invokeNative nat_ n).
Proof.
  unfold invokeNative. destruct (nat_ n) as [nt|] eqn:E; [|apply respi_undef]. destruct (n_fn nt) as [f|] eqn:F; [|apply respi_fail].
  destruct (NAT n nt f E F) as [G S V].
  intros s s' (R & X & Y). destruct R as [R B]. specialize (S _ _ R).
  destruct (f (rts s)) as [v r| |] eqn:F1, (f (rts s')) as [v' r'| |] eqn:F2; cbn in S; try contradiction; auto.
  - destruct S as [-> S]. split; [reflexivity|]. split; [|split; auto]. split.
    + destruct S as [[] [(S1 & S2 & S3 & S4) S5]], R as [_ [(R1 & R2 & R3 & R4) _]].
      split; [constructor; assumption|]. split; [repeat split; assumption|exact S5].
    + exact (proj2 (proj2 (V _ _ _ F1)) B).
  - destruct S as [-> S]. split; [reflexivity|]. destruct S as [[] [(S1 & S2 & S3 & S4) S5]], R as [_ [(R1 & R2 & R3 & R4) _]].
    split; [constructor; assumption|]. split; [repeat split; assumption|exact S5].
Qed.

Ltac rpi := repeat first
  [ apply respi_ret | apply respi_fail | apply respi_undef | apply respi_getr | apply respi_setr | apply respi_sarith | apply respi_sarith64
  | apply respi_native | apply respi_if
  | (apply respi_lift; first [ apply resp_getc | apply resp_setc | apply resp_getf_ | apply resp_setf_ | apply resp_push | apply resp_pop
      | apply resp_pushlist | apply resp_pushcells | apply resp_pushframe | apply resp_pushadr | apply resp_popn | apply resp_heap | apply resp_add
      | apply resp_ptrk | apply resp_trk | apply resp_ehs | apply resp_lhs | apply resp_init | apply resp_acquire | apply resp_tiba | apply resp_slot
      | apply resp_rd32 | apply resp_rd64 | apply resp_wr32 | apply resp_wr64 | apply resp_wr8 | apply resp_wr16 | apply resp_move | apply resp_fillcells
      | (apply resp_get; reflexivity) ])
  | (apply respi_bind; [|intros ?]) ].
Lemma exec_respi i : respi (exec strict fe nat_ mi i).
Proof.
  destruct i; cbn [exec]; unfold shl32, shr32, sshr32, check_div, Interp_Model.fill, acquireInt64Addr, so; try (rpi; fail).
  - destruct r; rpi.
  - (* PUSH_I_I64 *) apply respi_bind; [apply respi_getr|intros p]. apply respi_lift.
    apply resp_bind; [apply resp_acquire|intros src]. apply resp_bind; [apply resp_rd32|intros v1]. apply resp_bind; [apply resp_push|intros _].
    apply resp_bind; [apply resp_rd32|intros v0]. apply resp_push.
  - apply respi_bind; [apply respi_getr|intros p]. apply respi_bind; [|intros; apply respi_setr]. apply respi_lift.
    apply resp_bind; [apply resp_slot|intros d]. apply resp_bind; [apply resp_wr64|intros _]. apply resp_bind; [apply resp_get; reflexivity|intros f]. apply resp_ret.
  - apply respi_bind; [apply respi_getr|intros p]. apply respi_bind; [|intros; apply respi_setr]. apply respi_lift.
    apply resp_bind; [apply resp_acquire|intros a]. apply resp_rd64.
  - apply respi_bind; [apply respi_getr|intros p]. apply respi_bind; [|intros; apply respi_setr]. apply respi_lift.
    apply resp_bind; [apply resp_acquire|intros a]. apply resp_rd64.
  - destruct op; rpi.
  - destruct op; cbn [eval_bin64]; unfold check_div64; rpi.
  - apply respi_lift. apply resp_bind; [apply resp_slot|intros d]. apply resp_wr64.
  - apply respi_bind; [apply respi_getr|intros p]. apply respi_lift.
    apply resp_bind; [apply resp_acquire|intros a]. apply resp_bind; [apply resp_slot|intros d]. apply resp_bind; [apply resp_rd64|intros v]. apply resp_wr64.
  - apply respi_lift. apply resp_bind; [apply resp_setf_|intros _]. apply resp_setf_.
  - (* SYSREQ_N *) destruct (nat_ n) as [nt|]; [|apply respi_undef].
    assert (H : respi (lift (pushStack k);;; invokeNative nat_ n;;; lift (pop_n (Z.to_nat (u32 (k + 1)))))) by rpi.
    destruct (n_fn nt); [|exact H]. destruct (n_repl nt) as [[]|]; cbn [exec_fstack]; try exact H; rpi.
  - (* GENARRAY *) apply respi_lift. apply resp_bind; [apply resp_get; reflexivity|intros a]. apply resp_bind; [apply resp_acquire|intros stk].
    apply resp_bind; [apply resp_gen|intros _]. apply resp_popn.
Qed.
End Exec.
