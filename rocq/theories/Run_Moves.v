(* What each instruction does to the stack pointer and the frame pointer. *)
From Verif Require Import Base Base_Proofs Rtti_Model Rt_Model Array_Model Interp_Model Rt_Spec Rt_Proofs Hist_Proofs
  Array_Spec Array_Proofs Array_Exec Mem_Spec Mem_Proofs Init_Proofs Exec_Safe Cfg_Model Cfg_Spec Dom_Model Ver_Model Ver_Spec Run_Spec Run_Safe.
From Coq Require Import ZifyBool Lia.
Ltac Zify.zify_post_hook ::= idtac.

Definition J (s : rt) : Prop := I s /\ data_size s <= hp s <= sp s.
Definition mv {A} (k : Z) (m : RM A) : Prop :=
  forall s, J s -> match m s with Ok _ s' => J s' /\ sp s' = sp s - k /\ frm s' = frm s | _ => True end.
Definition mvi {A} (k : Z) (m : IM A) : Prop :=
  forall st, J (rts st) -> match m st with Ok _ st' => J (rts st') /\ sp (rts st') = sp (rts st) - k /\ frm (rts st') = frm (rts st) | _ => True end.

(* Operations that change only the memory. *)
Definition quiet {A} (m : RM A) : Prop := forall s a s', m s = Ok a s' -> s' = set_mem (mem s') s.
Lemma J_mem s m : J s -> J (set_mem m s).
Proof. intros [[[] []] ?]. split; [split; constructor|]; assumption. Qed.
Lemma quiet_mv A (m : RM A) : quiet m -> mv 0 m.
Proof.
  intros Q s H. destruct (m s) as [a s'| |] eqn:E; auto. apply Q in E. rewrite E. wsimp.
  split; [now apply J_mem|split; [lia|reflexivity]].
Qed.
Lemma quiet_bind A B (m : RM A) (k : A -> RM B) : quiet m -> (forall a, quiet (k a)) -> quiet (bind m k).
Proof.
  intros Hm Hk s a s' E. unfold bind in E. destruct (m s) as [b s1| |] eqn:E1; try discriminate.
  apply Hk in E. apply Hm in E1. rewrite E, E1. now destruct s.
Qed.
Lemma quiet_ret A (a : A) : quiet (ret a).
Proof. intros s b s' E. unfold ret in E. assert (s' = s) as -> by congruence. now destruct s. Qed.
Lemma quiet_fail A e : quiet (@fail rt A e). Proof. discriminate. Qed.
Lemma quiet_undef A e : quiet (@undef rt A e). Proof. discriminate. Qed.
Lemma quiet_get A (f : rt -> A) : quiet (get f).
Proof. intros s b s' E. unfold get in E. assert (s' = s) as -> by congruence. now destruct s. Qed.
Lemma quiet_if A (b : bool) (m1 m2 : RM A) : quiet m1 -> quiet m2 -> quiet (if b then m1 else m2).
Proof. now destruct b. Qed.
Lemma quiet_throw_if b e : quiet (throw_if b e). Proof. destruct b; [apply quiet_fail|apply quiet_ret]. Qed.
Lemma quiet_assert b : quiet (assert_ b). Proof. destruct b; [apply quiet_ret|apply quiet_undef]. Qed.
Lemma quiet_rd32 a : quiet (rd32 a).
Proof. intros s b s' E. unfold rd32 in E. destruct (in_mem s a 4); [|discriminate]. assert (s' = s) as -> by congruence. now destruct s. Qed.
Lemma quiet_rd64 a : quiet (rd64 a).
Proof. intros s b s' E. unfold rd64 in E. destruct (in_mem s a 8); [|discriminate]. assert (s' = s) as -> by congruence. now destruct s. Qed.
Lemma quiet_wr32 a v : quiet (wr32 a v).
Proof. intros s b s' E. unfold wr32 in E. destruct (in_mem s a 4); [|discriminate]. injection E as _ <-. now destruct s. Qed.
Lemma quiet_wr64 a v : quiet (wr64 a v).
Proof. intros s b s' E. unfold wr64 in E. destruct (in_mem s a 8); [|discriminate]. injection E as _ <-. now destruct s. Qed.
Lemma quiet_wr8 a v : quiet (wr8 a v).
Proof. intros s b s' E. unfold wr8 in E. destruct (in_mem s a 1); [|discriminate]. injection E as _ <-. now destruct s. Qed.
Lemma quiet_wr16 a v : quiet (wr16 a v).
Proof. intros s b s' E. unfold wr16 in E. destruct (in_mem s a 2); [|discriminate]. injection E as _ <-. now destruct s. Qed.
Lemma quiet_clear a v : quiet (clear a v).
Proof.
  intros s b s' E. unfold clear in E. destruct (v <=? 0); [injection E as _ <-; now destruct s|].
  destruct (in_mem s a v); [|discriminate]. injection E as _ <-. now destruct s.
Qed.
Lemma quiet_move d a v : quiet (move d a v).
Proof.
  intros s b s' E. unfold move in E. destruct (v <=? 0); [injection E as _ <-; now destruct s|].
  destruct (in_mem s a v && in_mem s d v); [|discriminate]. injection E as _ <-. now destruct s.
Qed.
Lemma quiet_bad a : quiet (throwIfBadAddress a).
Proof.
  intros s b s' E. unfold throwIfBadAddress in E. destruct (bad_address s a); [discriminate|]. injection E as _ <-. now destruct s.
Qed.
Lemma quiet_local a : quiet (LocalToPhysAddr a).
Proof.
  intros s b s' E. unfold LocalToPhysAddr in E. destruct (local_bad s a); [discriminate|]. injection E as _ <-. now destruct s.
Qed.
Lemma quiet_slot o : quiet (acquireInt64Slot o).
Proof.
  intros s b s' E. unfold acquireInt64Slot in E. cbv zeta in E. destruct (bad_address s _); [discriminate|]. injection E as _ <-. now destruct s.
Qed.
Ltac qt := repeat first
  [ apply quiet_ret | apply quiet_fail | apply quiet_undef | apply quiet_get | apply quiet_throw_if | apply quiet_assert | apply quiet_rd32
  | apply quiet_rd64 | apply quiet_wr32 | apply quiet_wr64 | apply quiet_wr8 | apply quiet_wr16 | apply quiet_clear | apply quiet_move
  | apply quiet_bad | apply quiet_local | apply quiet_slot | (apply quiet_bind; [|intros ?]) | apply quiet_if ].
Lemma quiet_acquire a n : quiet (acquireAddrRange a n). Proof. unfold acquireAddrRange. qt. Qed.
Lemma quiet_acquire64 a : quiet (acquireInt64Addr a). Proof. apply quiet_acquire. Qed.
Lemma quiet_getCell a : quiet (getCellValue a). Proof. unfold getCellValue. qt. Qed.
Lemma quiet_setCell a v : quiet (setCellValue a v). Proof. unfold setCellValue. qt. Qed.
Lemma quiet_getFrame a : quiet (getFrameValue a). Proof. unfold getFrameValue. qt. Qed.
Lemma quiet_setFrame a v : quiet (setFrameValue a v). Proof. unfold setFrameValue. qt. Qed.
Lemma quiet_fill_cells n : forall a v, quiet (fill_cells n a v). Proof. induction n; intros; cbn [fill_cells]; qt; auto. Qed.
Lemma quiet_copy_ivs n : forall d a x, quiet (copy_ivs n d a x). Proof. induction n; intros; cbn [copy_ivs]; qt; auto. Qed.
Lemma quiet_rd_cells n : forall a, quiet (rd_cells a n). Proof. induction n; intros; cbn [rd_cells]; qt; auto. Qed.
Lemma quiet_init a d iv c f v : quiet (initArray a d iv c f v).
Proof. unfold initArray. qt; try apply quiet_copy_ivs; try apply quiet_fill_cells. Qed.
Lemma quiet_inner dl : forall base cur data, quiet (inner_iv base dl cur data).
Proof.
  induction dl as [|d rest IH]; intros base cur data; [apply quiet_ret|]. cbn [inner_iv]. cbv zeta.
  assert (A : forall k w da,
    quiet ((fix loop (k : nat) (w da : Z) : RM (Z * Z) :=
         match k with
         | O => ret (wrap32 (cur + d), da)
         | S k' => wr32 (base + 4 * w) (wrap32 ((da - w) * 4));;; loop k' (wrap32 (w + 1)) (wrap32 (da + hd 0 rest))
         end) k w da)).
  { induction k as [|k IHk]; intros w da; [apply quiet_ret|]. apply quiet_bind; [apply quiet_wr32|intros _]. apply IHk. }
  destruct rest as [|d1 [|d2 rest']]; [apply A|apply A|].
  clear A. generalize (Z.to_nat d) as k. intro k. generalize (wrap32 (cur + d)) as c. revert cur data.
  induction k as [|k IHk]; intros cur data c; [apply quiet_ret|].
  apply quiet_bind; [apply quiet_wr32|intros _]. apply quiet_bind; [apply IH|intros r]. apply IHk.
Qed.
Lemma quiet_absolute addr dims dim : forall iv data, quiet (absolute_iv addr dims dim iv data).
Proof.
  induction dim as [|dim IH]; intros iv data; [apply quiet_ret|]. cbn [absolute_iv]. cbv zeta.
  generalize (Z.to_nat (dim_at dims (S dim))) as k. intro k. generalize 0 as i. generalize (wrap32 (iv + dim_at dims (S dim) * 4)) as iv'.
  revert data. induction k as [|k IHk]; intros data iv' i; [apply quiet_ret|].
  apply quiet_bind; [apply IH|intros [[off iv''] data'']]. apply quiet_bind; [apply quiet_wr32|intros _]. apply IHk.
Qed.

(* ---- The operations that move pointers ---- *)
Lemma mv_bind A B (m : RM A) (k : A -> RM B) x y : mv x m -> (forall a, mv y (k a)) -> mv (x + y) (bind m k).
Proof.
  intros Hm Hk s H. specialize (Hm s H). unfold bind. destruct (m s) as [a s1| |]; auto. destruct Hm as (H1 & H2 & H3).
  specialize (Hk a s1 H1). destruct (k a s1) as [b s2| |]; auto. destruct Hk as (K1 & K2 & K3).
  split; [exact K1|]. split; [lia|congruence].
Qed.
Lemma mv_bind0 A B (m : RM A) (k : A -> RM B) y : mv 0 m -> (forall a, mv y (k a)) -> mv y (bind m k).
Proof. intros. replace y with (0 + y) by lia. now apply mv_bind. Qed.
Lemma mv_fail A e k : mv k (@fail rt A e). Proof. intros s H. exact Logic.I. Qed.
Lemma mv_undef A u k : mv k (@undef rt A u). Proof. intros s H. exact Logic.I. Qed.

Lemma J_sp s v : J s -> hp s <= v -> v < mem_size s -> J (set_sp v s).
Proof. intros [[[] []] ?] H1 H2. split; [split; constructor|]; wsimp; lia || assumption. Qed.
Lemma J_hp s v : J s -> data_size s <= v -> v <= sp s -> v <= stp s -> J (set_hp v s).
Proof. intros [[[] []] ?] H1 H2 H3. split; [split; constructor|]; wsimp; lia || assumption. Qed.
Lemma J_scope s v : J s -> is_i32 v -> J (set_hp_scope v s).
Proof. intros [[[] []] ?] H1. split; [split; constructor|]; wsimp; lia || assumption. Qed.
Ltac dj H := destruct H as [[[] []] ?].

Lemma mv_push v : mv 4 (pushStack v).
Proof.
  intros s H. rewrite pushStack_eq by apply H. destruct (sp s <=? hp s + 4) eqn:E; [exact Logic.I|]. wsimp.
  split; [|split; [lia|reflexivity]]. apply J_mem, J_sp; [exact H|lia|]. dj H. lia.
Qed.
Lemma mv_pop : mv (-4) popStack.
Proof.
  intros s H. rewrite popStack_eq by apply H. destruct (sp s >=? stp s) eqn:E; [exact Logic.I|]. wsimp.
  split; [|split; [lia|reflexivity]]. apply J_sp; [exact H|dj H; lia|dj H; lia].
Qed.
Lemma mv_pop_n n : mv (-4 * Z.of_nat n) (pop_n n).
Proof.
  induction n as [|n IH]; cbn [pop_n]; [apply quiet_mv, quiet_ret|].
  replace (-4 * Z.of_nat (S n)) with (-4 + -4 * Z.of_nat n) by lia. apply mv_bind; [apply mv_pop|intros; exact IH].
Qed.
Lemma mv_push_list l : mv (4 * Z.of_nat (length l)) (push_list l).
Proof.
  induction l as [|v l IH]; cbn [push_list length]; [apply quiet_mv, quiet_ret|].
  replace (4 * Z.of_nat (S (length l))) with (4 + 4 * Z.of_nat (length l)) by lia. apply mv_bind; [apply mv_push|intros; exact IH].
Qed.
Lemma mv_push_cells l : mv (4 * Z.of_nat (length l)) (push_cells l).
Proof.
  induction l as [|v l IH]; cbn [push_cells length]; [apply quiet_mv, quiet_ret|].
  replace (4 * Z.of_nat (S (length l))) with (4 + 4 * Z.of_nat (length l)) by lia.
  apply mv_bind0; [apply quiet_mv, quiet_getCell|intros]. apply mv_bind; [apply mv_push|intros; exact IH].
Qed.
Lemma mv_push_frame mi l : mv (4 * Z.of_nat (length l)) (push_frame mi l).
Proof.
  induction l as [|v l IH]; cbn [push_frame length]; [apply quiet_mv, quiet_ret|].
  replace (4 * Z.of_nat (S (length l))) with (4 + 4 * Z.of_nat (length l)) by lia.
  apply mv_bind0; [apply quiet_mv, quiet_getFrame|intros]. apply mv_bind; [apply mv_push|intros; exact IH].
Qed.
Lemma mv_push_adr mi l : mv (4 * Z.of_nat (length l)) (push_adr mi l).
Proof.
  induction l as [|v l IH]; cbn [push_adr length]; [apply quiet_mv, quiet_ret|].
  replace (4 * Z.of_nat (S (length l))) with (4 + 4 * Z.of_nat (length l)) by lia.
  apply mv_bind0; [apply quiet_mv, quiet_get|intros]. apply mv_bind; [apply mv_push|intros; exact IH].
Qed.

Lemma heapAlloc_J s n : J s -> amount_ok s n ->
  match heapAlloc n s with Ok a s' => a = hp s /\ s' = set_hp (hp s + n) s /\ J s' | _ => True end.
Proof.
  intros H Hn. rewrite heapAlloc_eq by (apply H || assumption).
  destruct (n <? 0) eqn:E; [destruct (hp s + n <? data_size s) eqn:F|destruct (hp s + n + 64 >? sp s) eqn:F]; try exact Logic.I;
    (do 2 (split; [reflexivity|])); (apply J_hp; [exact H|dj H; lia..]).
Qed.
Lemma mv_pushTracker n : mv 0 (pushTracker n).
Proof.
  intros s H. unfold pushTracker. erewrite bind_ok by reflexivity. unfold bind at 1, assert_.
  destruct (negb (heap_scopes s)); [|exact Logic.I]. cbn [ret]. unfold bind at 1, throw_if. destruct (u32 n >? 2147483647); [exact Logic.I|].
  cbn [ret]. unfold bind at 1. rewrite (wrap32_id (sp s - hp s)) by (dj H; bnd). destruct (sp s - hp s <? STACK_MARGIN) eqn:E; [exact Logic.I|].
  cbn [ret]. unfold bind, wr32. destruct (in_mem s (hp s) 4); [|exact Logic.I]. unfold put. wsimp. unfold STACK_MARGIN in E.
  rewrite (wrap32_id (hp s + 4)) by (dj H; bnd). split; [|split; [lia|reflexivity]].
  apply J_hp; [now apply J_mem|wsimp; dj H; lia..].
Qed.
Lemma mv_popTracker : mv 0 popTrackerAndSetHeap.
Proof.
  intros s H. unfold popTrackerAndSetHeap. erewrite bind_ok by reflexivity. unfold bind at 1, assert_.
  rewrite (wrap32_id (data_size s)) by (dj H; bnd).
  destruct (_ && _); [|exact Logic.I]. cbn [ret]. unfold bind at 1, throw_if at 1. rewrite (wrap32_id (hp s - data_size s)) by (dj H; bnd).
  destruct (hp s - data_size s <? 4) eqn:E; [exact Logic.I|]. cbn [ret]. unfold bind at 1, put at 1.
  rewrite (wrap32_id (hp s - 4)) by (dj H; bnd). unfold bind at 1, get at 1. wsimp. unfold bind at 1, rd32. destruct (in_mem _ _ 4); [|exact Logic.I].
  wsimp. unfold bind, throw_if. set (amt := load32 (mem s) (hp s - 4)).
  rewrite (wrap32_id (hp s - 4 - data_size s)) by (dj H; bnd).
  destruct ((amt <? 0) || (hp s - 4 - data_size s <? amt)) eqn:F; [exact Logic.I|]. cbn [ret]. unfold put. wsimp.
  rewrite (wrap32_id (hp s - 4 - amt)) by (dj H; bnd). split; [|split; [lia|reflexivity]].
  assert (X : J (set_hp (hp s - 4) s)) by (apply J_hp; [exact H|dj H; lia..]). apply (J_hp _ (hp s - 4 - amt)) in X; wsimp; try exact X; dj H; lia.
Qed.
Lemma mv_enterScope : mv 0 enterHeapScope.
Proof.
  intros s H. unfold enterHeapScope. erewrite bind_ok by reflexivity. unfold bind at 1.
  pose proof (heapAlloc_J s 4 H (amount_ok_4 s (proj1 H))) as X. destruct (heapAlloc 4 s) as [a s1| |]; try exact Logic.I.
  destruct X as (-> & E & J1). unfold bind at 1, put. unfold bind, throwIfBadAddress. destruct (bad_address _ _); [exact Logic.I|].
  unfold wr32. destruct (in_mem _ _ 4); [|exact Logic.I]. rewrite E in *. wsimp. split; [|split; [lia|reflexivity]].
  apply J_mem. apply J_scope; [exact J1|]. dj H. bnd.
Qed.
Lemma leaveScope_J s : J s -> data_size s <= hp_scope s <= hp s ->
  match leaveHeapScope s with Ok _ s' => J s' /\ sp s' = sp s /\ frm s' = frm s | _ => True end.
Proof.
  intros H B. unfold leaveHeapScope. erewrite bind_ok by reflexivity. unfold bind at 1, throwIfBadAddress at 1.
  destruct (bad_address _ _); [exact Logic.I|]. unfold bind at 1, rd32. destruct (in_mem _ _ 4); [|exact Logic.I].
  unfold bind at 1, put at 1. unfold bind at 1, put at 1. set (prev := load32 (mem s) (hp_scope s)).
  assert (X : J (set_hp_scope prev (set_hp (hp_scope s) s))).
  { apply J_scope; [|apply load32_range]. apply J_hp; [exact H|dj H; lia..]. }
  destruct (prev =? -1); [split; [exact X|split; reflexivity]|]. unfold bind, throwIfBadAddress. destruct (bad_address _ _); [exact Logic.I|].
  split; [exact X|split; reflexivity].
Qed.
Lemma addStack_J s n : J s -> amount_ok s n ->
  match addStack n s with Ok _ s' => s' = set_sp (sp s + n) s /\ J s' | _ => True end.
Proof.
  intros H Hn. rewrite addStack_eq by (apply H || assumption).
  destruct (n <? 0) eqn:E; [destruct (sp s + n <? hp s + 64) eqn:F|destruct (sp s + n >? stp s) eqn:F]; try exact Logic.I;
    (split; [reflexivity|]); (apply J_sp; [exact H|dj H; lia..]).
Qed.

Lemma genarray_J strict fe nat_ mi n z st st' : J (rts st) -> 1 <= n -> 4 * n < two31 -> 64 <= sp (rts st) ->
  exec strict fe nat_ mi (GENARRAY n z) st = Ok tt st' ->
  J (rts st') /\ sp (rts st') = sp (rts st) + 4 * (n - 1) /\ frm (rts st') = frm (rts st).
Proof.
  intros H Hn Hn4 H64 E. destruct st as [s p a]. cbn [rts] in *.
  assert (HS : sp s + 4 * n <= stp s).
  { destruct (Z_le_gt_dec (sp s + 4 * n) (stp s)) as [HS|HS]; [exact HS|exfalso].
    cbn [exec] in E. unfold lift in E. cbn [rts pri alt] in E. rewrite (bind_ok _ _ _ _ _ _ (sp s) s) in E by reflexivity.
    rewrite (u32_id (n * 4)) in E by (unfold is_u32, two31, two32 in *; lia).
    unfold bind at 1 in E.
    assert (X : acquireAddrRange (sp s) (n * 4) s = Fail INVALID_ADDRESS s).
    { unfold acquireAddrRange. destruct (script_address_dec s (sp s)) as [A|A].
      - erewrite bind_ok by (apply throwIfBadAddress_ok; exact A). replace (n * 4 =? 0) with false by lia.
        unfold bind. rewrite throwIfBadAddress_bad; [reflexivity|]. intros [X _]. dj H. clear E H64.
        destruct (Z_lt_ge_dec (sp s + n * 4 - 1) two31); [rewrite wrap32_id in X by bnd; lia|].
        assert (Y : wrap32 (sp s + n * 4 - 1) = sp s + n * 4 - 1 - two32).
        { unfold wrap32. replace ((sp s + n * 4 - 1 + two31) mod two32) with (sp s + n * 4 - 1 + two31 - two32);
            [lia|]. apply Z.mod_unique with 1; unfold two31, two32 in *; lia. }
        rewrite Y in X. unfold two31, two32 in *. lia.
      - unfold bind. now rewrite throwIfBadAddress_bad. }
    rewrite X in E. discriminate. }
  destruct H as [[L P] O].
  assert (PO : pointers_ok s) by (constructor; lia). destruct P as [P1 P2 P3 P4].
  destruct (genarray_layout strict fe nat_ mi s p a n z st' L PO P3 P4 Hn HS H64 E) as (HF & X1 & X2 & X3 & [Y1 Y2 Y3] & _).
  destruct (genarray_granted strict fe nat_ mi s p a n z L PO P3 P4 Hn HS HF) as (s'' & E2 & Hsp2 & s1 & M & Es).
  rewrite E in E2. assert (st' = mkIst s'' p a) as -> by congruence. cbn [rts] in *. subst s''.
  destruct M as (M1 & M2 & M3 & M4 & [M5 M6 M7 M8 M9] & _). wsimp.
  assert (LB : 16384 <= mem_size s /\ mem_size s + 128 <= two31 /\ stp s = mem_size s - 4 /\ 0 <= data_size s) by (destruct L; lia).
  split; [|split; [lia|exact M3]].
  split; [split; [destruct L; constructor; wsimp; congruence || lia|constructor; wsimp; rewrite ?M3, ?M4, ?M5, ?M7; auto; lia]|wsimp; lia].
Qed.

(* ---- Instructions ---- *)
Lemma mvi_bind A B (m : IM A) (k : A -> IM B) x y : mvi x m -> (forall a, mvi y (k a)) -> mvi (x + y) (bind m k).
Proof.
  intros Hm Hk s H. specialize (Hm s H). unfold bind. destruct (m s) as [a s1| |]; auto. destruct Hm as (H1 & H2 & H3).
  specialize (Hk a s1 H1). destruct (k a s1) as [b s2| |]; auto. destruct Hk as (K1 & K2 & K3).
  split; [exact K1|]. split; [lia|congruence].
Qed.
Lemma mvi_bind0 A B (m : IM A) (k : A -> IM B) y : mvi 0 m -> (forall a, mvi y (k a)) -> mvi y (bind m k).
Proof. intros. replace y with (0 + y) by lia. now apply mvi_bind. Qed.
Lemma mvi_lift A k (m : RM A) : mv k m -> mvi k (lift m).
Proof. intros H st Hs. specialize (H (rts st) Hs). unfold lift. destruct (m (rts st)); auto. Qed.
(* Register operations. *)
Definition still {A} (m : IM A) : Prop := forall st a st', m st = Ok a st' -> rts st' = rts st.
Lemma still_mvi A (m : IM A) : still m -> mvi 0 m.
Proof. intros Q st H. destruct (m st) as [a st'| |] eqn:E; auto. apply Q in E. rewrite E. split; [exact H|split; [lia|reflexivity]]. Qed.
Lemma still_ret A (a : A) : still (ret a). Proof. intros st b st' E. unfold ret in E. congruence. Qed.
Lemma still_fail A e : still (@fail ist A e). Proof. discriminate. Qed.
Lemma still_undef A u : still (@undef ist A u). Proof. discriminate. Qed.
Lemma still_getr r : still (getr r). Proof. intros st b st' E. unfold getr in E. congruence. Qed.
Lemma still_setr r v : still (setr r v). Proof. intros st b st' E. unfold setr in E. destruct r; injection E as _ <-; reflexivity. Qed.
Lemma still_sarith b z : still (sarith b z).
Proof. unfold sarith. destruct (is_i32b z); [apply still_ret|]. destruct b; [apply still_undef|apply still_ret]. Qed.
Lemma still_shl x n : still (shl32 x n). Proof. unfold shl32. destruct (_ && _); [apply still_ret|apply still_undef]. Qed.
Lemma still_shr x n : still (shr32 x n). Proof. unfold shr32. destruct (_ && _); [apply still_ret|apply still_undef]. Qed.
Lemma still_sshr x n : still (sshr32 x n). Proof. unfold sshr32. destruct (_ && _); [apply still_ret|apply still_undef]. Qed.
Lemma still_div x n : still (check_div x n).
Proof. unfold check_div. destruct (n =? 0); [apply still_fail|]. destruct (_ && _); [apply still_fail|apply still_ret]. Qed.
Lemma still_eval64 b op p a : still (eval_bin64 b op p a).
Proof.
  intros st r st' E. destruct op; cbn [eval_bin64] in E; unfold sarith64, check_div64, bind, ret, fail, undef in E;
    repeat match type of E with context [if ?c then _ else _] => destruct c end; try discriminate; injection E as _ <-; reflexivity.
Qed.
Lemma still_un64 b (op : un64) v : still (match op with Inv64 => ret (Z.lnot v) | Neg64 => sarith64 b (- v) end).
Proof.
  destruct op; [apply still_ret|]. unfold sarith64. destruct (is_i64b _); [apply still_ret|]. destruct b; [apply still_undef|apply still_ret].
Qed.
Lemma mvi_if A (b : bool) (m1 m2 : IM A) k : mvi k m1 -> mvi k m2 -> mvi k (if b then m1 else m2). Proof. now destruct b. Qed.

Section Moves.
Variables (fe : fenv) (nat_ : Z -> option native) (mi : meth).
Hypothesis HG : good_natives nat_.
Hypothesis HN : forall n nt f s v s', nat_ n = Some nt -> n_fn nt = Some f -> f s = Ok v s' -> is_i32 v /\ frm s' = frm s.

Lemma mvi_native n : mvi 0 (invokeNative nat_ n).
Proof.
  intros st H. unfold invokeNative. destruct (nat_ n) as [nt|] eqn:E; [|exact Logic.I].
  destruct (n_fn nt) as [f|] eqn:F; [|exact Logic.I]. destruct (f (rts st)) as [v r| |] eqn:G; [|exact Logic.I..]. cbn [rts]. wsimp.
  destruct (HN _ _ _ _ _ _ E F G) as [_ H3]. specialize (HG n nt f E F (rts st) (proj1 H)). rewrite G in HG.
  destruct HG as ([[] _] & [L P]). split; [|split; [lia|exact H3]]. dj H. destruct L, P.
  split; [split; constructor; wsimp; congruence || lia|]. wsimp. lia.
Qed.

Ltac qq := first [apply quiet_ret | apply quiet_get | apply quiet_rd32 | apply quiet_rd64 | apply quiet_wr32 | apply quiet_wr64 | apply quiet_wr8
  | apply quiet_wr16 | apply quiet_move | apply quiet_bad | apply quiet_slot | apply quiet_acquire | apply quiet_acquire64 | apply quiet_getCell
  | apply quiet_setCell | apply quiet_getFrame | apply quiet_setFrame | apply quiet_init | apply quiet_fill_cells | (apply quiet_bind; [|intros ?]) ].
Ltac mvs := repeat first
  [ (apply still_mvi; first [apply still_ret | apply still_fail | apply still_undef | apply still_getr | apply still_setr | apply still_sarith | apply still_shl
      | apply still_shr | apply still_sshr | apply still_div | apply still_eval64 | apply still_un64])
  | (apply mvi_lift, quiet_mv; repeat qq; fail)
  | apply mvi_native | apply mvi_if
  | (apply mvi_lift; first [apply mv_pushTracker | apply mv_popTracker | apply mv_enterScope])
  | (apply mvi_bind0; [|intros ?]) ].

(* Instructions that leave the stack pointer alone. *)
Definition plain_instr (i : instr) : bool :=
  match i with
  | PUSHR _ | PUSH_C _ | PUSH _ | PUSH_S _ | PUSH_ADR _ | PUSH_I_I64 | POP _ | SWAP _ | STACK _ | HEAP _ | SYSREQ_N _ _ | GENARRAY _ _
  | HEAP_RESTORE => false
  | _ => true
  end.
Lemma mvi_plain i : plain_instr i = true -> mvi 0 (exec false fe nat_ mi i).
Proof.
  intros P. destruct i; try discriminate P; try (destruct r); cbn [exec]; try (mvs; fail).
Qed.

(* What the exceptional instructions need. *)
Definition moving_ok (st : ist) (i : instr) : Prop :=
  match i with
  | STACK n => amount_ok (rts st) n /\ n mod 4 = 0
  | HEAP n => amount_ok (rts st) n
  | SYSREQ_N n k => 0 <= k <= 127 /\ forall nt f, nat_ n = Some nt -> n_repl nt = Some f -> k = arity f
  | GENARRAY n _ => 1 <= n /\ 4 * n < two31 /\ 64 <= sp (rts st)
  | HEAP_RESTORE => data_size (rts st) <= hp_scope (rts st) <= hp (rts st)
  | _ => True
  end.

Lemma exec_moves code prev i ms st st' : J (rts st) -> moving_ok st i -> moves code prev i = Some ms ->
  exec false fe nat_ mi i st = Ok tt st' ->
  J (rts st') /\ sp (rts st') = sp (rts st) - 4 * total ms /\ frm (rts st') = frm (rts st).
Proof.
  intros H M E X.
  assert (G : forall k, mvi k (exec false fe nat_ mi i) -> k = 4 * total ms ->
    J (rts st') /\ sp (rts st') = sp (rts st) - 4 * total ms /\ frm (rts st') = frm (rts st)).
  { intros k Q ->. specialize (Q st H). now rewrite X in Q. }
  destruct (plain_instr i) eqn:P.
  - destruct i; try discriminate X; try discriminate P;
      (apply (G 0); [now apply mvi_plain|]); cbn [moves] in E; injection E as <-; reflexivity.
  - destruct i; try discriminate P; cbn [moves] in E; try (injection E as <-); cbn [total fold_right] in G |- *; rewrite ?Z.add_0_r in G; rewrite ?Z.add_0_r.
    + apply (G 4); [|lia]. cbn [exec]. apply mvi_bind0; [apply still_mvi, still_getr|intros]. apply mvi_lift, mv_push.
    + eapply G; [cbn [exec]; apply mvi_lift, mv_push_list|]. lia.
    + eapply G; [cbn [exec]; apply mvi_lift, mv_push_cells|]. lia.
    + eapply G; [cbn [exec]; apply mvi_lift, mv_push_frame|]. lia.
    + eapply G; [cbn [exec]; apply mvi_lift, mv_push_adr|]. lia.
    + apply (G (4 + 4)); [|lia]. cbn [exec]. apply mvi_bind0; [apply still_mvi, still_getr|intros]. apply mvi_lift.
      apply mv_bind0; [apply quiet_mv, quiet_acquire|intros]. apply mv_bind0; [apply quiet_mv, quiet_rd32|intros].
      apply mv_bind; [apply mv_push|intros]. apply mv_bind0; [apply quiet_mv, quiet_rd32|intros]. apply mv_push.
    + apply (G (-4 + 0)); [|lia]. cbn [exec]. apply mvi_bind; [apply mvi_lift, mv_pop|intros]. apply still_mvi, still_setr.
    + (* STACK *) cbn [exec] in X. unfold lift in X. destruct M as [M1 M2]. pose proof (addStack_J (rts st) a H M1) as Q.
      destruct (addStack a (rts st)) as [[] s'| |]; try discriminate. injection X as <-. destruct Q as [-> Q]. cbn [rts]. wsimp.
      split; [exact Q|]. split; [|reflexivity]. pose proof (Z.div_mod a 4). lia.
    + (* HEAP *) cbn [exec] in X. unfold bind, lift in X. pose proof (heapAlloc_J (rts st) a H M) as Q.
      destruct (heapAlloc a (rts st)) as [? s'| |]; try discriminate. cbn [setr rts] in X. injection X as <-. cbn [rts].
      destruct Q as (_ & -> & Q). wsimp. split; [exact Q|]. split; [lia|reflexivity].
    + (* SYSREQ_N *) destruct M as [M1 M2]. cbn [exec] in X.
      destruct (nat_ n) as [nt|] eqn:En; [|discriminate X].
      assert (GN : mvi (4 * (1 + - (k + 1))) (lift (pushStack k);;; invokeNative nat_ n;;; lift (pop_n (Z.to_nat (u32 (k + 1)))))).
      { replace (4 * (1 + - (k + 1))) with (4 + (-4 * Z.of_nat (Z.to_nat (u32 (k + 1))))).
        - apply mvi_bind; [apply mvi_lift, mv_push|intros]. apply mvi_bind0; [apply mvi_native|intros]. apply mvi_lift, mv_pop_n.
        - rewrite u32_id by (unfold is_u32, two32; lia). lia. }
      assert (G2 : forall m : IM unit, m st = Ok tt st' -> mvi (4 * (1 + - (k + 1))) m ->
         J (rts st') /\ sp (rts st') = sp (rts st) - 4 * (1 + - (k + 1)) /\ frm (rts st') = frm (rts st)).
      { intros m Em Q. specialize (Q st H). now rewrite Em in Q. }
      destruct (n_fn nt) as [f|]; [|exact (G2 _ X GN)]. destruct (n_repl nt) as [fs|] eqn:ER; [|exact (G2 _ X GN)].
      specialize (M2 nt fs eq_refl ER). apply (G2 _ X). subst k.
      destruct fs; cbn [exec_fstack arity].
      * apply (mvi_bind _ _ _ _ (-4) 0); [apply mvi_lift, mv_pop|intros; apply still_mvi, still_setr].
      * apply (mvi_bind _ _ _ _ (-4) 0); [apply mvi_lift, mv_pop|intros; apply still_mvi, still_setr].
      * apply (mvi_bind _ _ _ _ (-4) (-4)); [apply mvi_lift, mv_pop|intros].
        apply (mvi_bind _ _ _ _ (-4) 0); [apply mvi_lift, mv_pop|intros; apply still_mvi, still_setr].
      * apply (mvi_bind _ _ _ _ (-4) 0); [apply mvi_lift, mv_pop|intros; apply still_mvi, still_setr].
    + (* SWAP *) apply (G (-4 + 4)); [|lia]. cbn [exec]. apply mvi_bind0; [apply still_mvi, still_getr|intros].
      apply mvi_bind; [apply mvi_lift, mv_pop|intros]. apply mvi_bind0; [apply still_mvi, still_setr|intros]. apply mvi_lift, mv_push.
    + (* GENARRAY *) destruct M as (M1 & M2 & M3). destruct (genarray_J _ _ _ _ _ _ _ _ H M1 M2 M3 X) as (Q1 & Q2 & Q3).
      split; [exact Q1|]. split; [lia|exact Q3].
    + (* HEAP_RESTORE *) cbn [exec] in X. unfold lift in X. pose proof (leaveScope_J (rts st) H M) as Q.
      destruct (leaveHeapScope (rts st)) as [[] s'| |]; try discriminate. injection X as <-. cbn [rts].
      destruct Q as (Q1 & Q2 & Q3). split; [exact Q1|]. split; [lia|exact Q3].
Qed.
End Moves.

(* What a push of constants leaves on top. *)
Lemma push_list_top l : forall s s', J s -> Forall is_i32 l -> l <> [] -> push_list l s = Ok tt s' -> load32 (mem s') (sp s') = last l 0.
Proof.
  induction l as [|v l IH]; intros s s' H F N E; [contradiction|]. cbn [push_list] in E.
  pose proof (mv_push v s H) as M. rewrite pushStack_eq in M by apply H. unfold bind in E. rewrite pushStack_eq in E by apply H.
  destruct (sp s <=? hp s + 4); [discriminate|]. destruct M as (M1 & _). inversion F as [|? ? F1 F2]; subst.
  destruct l as [|w l].
  - cbn [push_list] in E. injection E as <-. cbn [last]. wsimp. rewrite load32_store32_same. now apply wrap32_id.
  - change (last (v :: w :: l) 0) with (last (w :: l) 0). eapply IH; eauto. discriminate.
Qed.
