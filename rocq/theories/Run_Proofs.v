(* Whole runs of verified programs: memory safety and the depth of the stack. *)
From Verif Require Import Base Base_Proofs Rtti_Model Rtti_Spec Rt_Model Array_Model Interp_Model Rt_Spec Rt_Proofs Hist_Proofs
  Array_Spec Array_Proofs Array_Exec Mem_Spec Mem_Proofs Init_Proofs Exec_Safe Cfg_Model Cfg_Spec Cfg_Proofs Dom_Model
  Ver_Model Ver_Spec Ver_Proofs Ver_Ops Run_Spec Run_Safe Run_Moves.
From Coq Require Import ZifyBool Lia.
Ltac Zify.zify_post_hook ::= idtac.

(* ---- Entering and leaving a frame ---- *)
Lemma enter_J mi s s' : J s -> - two31 <= StackSizeForLocalSlots mi <= 0 -> Interp_Model.enter mi s = Ok tt s' ->
  J s' /\ frm s' = sp s - 8 /\ sp s' = frm s' + StackSizeForLocalSlots mi /\
  load32 (mem s') (frm s' + 4) = frm s /\ load32 (mem s') (frm s' + 8) = load32 (mem s) (sp s).
Proof.
  intros H B E. unfold Interp_Model.enter in E. unfold bind at 1 in E. unfold pushAmxFrame in E.
  rewrite (bind_ok _ _ _ _ _ _ (frm s) s) in E by reflexivity. unfold bind at 1 in E. rewrite pushStack_eq in E by apply H.
  destruct (sp s <=? hp s + 4) eqn:E1; [discriminate|]. set (s1 := set_mem _ _) in E.
  assert (H1 : J s1) by (apply J_mem, J_sp; [exact H|dj H; lia..]).
  unfold bind at 1 in E. pose proof (heapAlloc_J s1 4 H1 (amount_ok_4 s1 (proj1 H1))) as X.
  pose proof (heapAlloc_eq s1 4 (proj1 H1) (amount_ok_4 s1 (proj1 H1))) as Y. change (4 <? 0) with false in Y. cbv iota in Y.
  destruct (heapAlloc 4 s1) as [a s2| |]; try discriminate. destruct X as (-> & -> & H2).
  destruct (hp s1 + 4 + 64 >? sp s1) eqn:E2; [discriminate|]. clear Y.
  unfold bind at 1 in E. unfold throwIfBadAddress in E. destruct (bad_address _ _); [discriminate|].
  rewrite (bind_ok _ _ _ _ _ _ (hp_scope s1) (set_hp (hp s1 + 4) s1)) in E by reflexivity.
  unfold bind at 1 in E. unfold wr32 at 1 in E. destruct (in_mem _ _ 4); [|discriminate]. set (s3 := set_mem _ _) in E.
  assert (H3 : J s3) by (apply J_mem; exact H2).
  unfold bind at 1 in E. rewrite pushStack_eq in E by apply H3. destruct (sp s3 <=? hp s3 + 4) eqn:E3; [discriminate|].
  set (s4 := set_mem _ _) in E. assert (H4 : J s4) by (apply J_mem, J_sp; [exact H3|dj H3; lia..]).
  unfold bind at 1 in E. unfold get, put in E.
  assert (F : is_i32 (frm s)) by (dj H; assumption).
  assert (M4 : load32 (mem s4) (sp s - 4) = frm s /\ load32 (mem s4) (sp s) = load32 (mem s) (sp s) /\ sp s4 = sp s - 8).
  { unfold s4, s3, s1 in *; wsimp. split; [|split; [|lia]].
    - rewrite load32_store32_other by lia. rewrite load32_store32_other by (dj H; lia). now apply store_load_chain.
    - rewrite load32_store32_other by lia. rewrite load32_store32_other by (dj H; lia). apply load32_store32_other. lia. }
  destruct M4 as (M41 & M42 & M43).
  assert (H5 : J (set_frm (sp s4) s4)).
  { destruct H4 as [[[] []] ?]. split; [split; constructor|]; wsimp; try assumption; bnd. }
  assert (R : (if StackSizeForLocalSlots mi =? 0 then ret tt else addStack (StackSizeForLocalSlots mi)) (set_frm (sp s4) s4) = Ok tt s' ->
    s' = set_sp (sp s4 + StackSizeForLocalSlots mi) (set_frm (sp s4) s4) /\ J s').
  { clear E. intro E. destruct (StackSizeForLocalSlots mi =? 0) eqn:Z0.
    - unfold ret in E. assert (s' = set_frm (sp s4) s4) as -> by congruence. replace (StackSizeForLocalSlots mi) with 0 by lia. rewrite Z.add_0_r. split; [clearbody s4; destruct s4; reflexivity|exact H5].
    - assert (A : amount_ok (set_frm (sp s4) s4) (StackSizeForLocalSlots mi)).
      { split; [unfold is_i32; unfold two31 in *; lia|]. dj H5. lia. }
      pose proof (addStack_J _ _ H5 A) as Q. rewrite E in Q. exact Q. }
  destruct (R E) as (-> & H6). split; [exact H6|]. clearbody s4. wsimp. rewrite M43. split; [reflexivity|]. split; [reflexivity|].
  replace (sp s - 8 + 4) with (sp s - 4) by lia. replace (sp s - 8 + 8) with (sp s) by lia. split; assumption.
Qed.

Lemma enter_safe mi s : I s -> - two31 <= StackSizeForLocalSlots mi <= 0 ->
  match Interp_Model.enter mi s with Ok _ s' => R s s' | Fail _ s' => R0 s s' | UB u => u <> UBMem end.
Proof.
  intros H B. unfold Interp_Model.enter. unfold bind. pose proof (safe_pushAmxFrame s H) as Q. unfold wp in Q.
  destruct (pushAmxFrame s) as [[] s1| |]; [|exact Q|exact Q].
  destruct (StackSizeForLocalSlots mi =? 0); [exact Q|]. assert (I1 : I s1) by apply (R_I _ _ Q).
  assert (A : amount_ok s1 (StackSizeForLocalSlots mi)).
  { split; [unfold is_i32; unfold two31 in *; lia|]. destruct I1 as [[] _]. lia. }
  pose proof (safe_addStack_at s1 _ I1 A) as W. unfold wp in W.
  destruct (addStack (StackSizeForLocalSlots mi) s1); [eapply R_trans; eauto|eapply R0_trans; [apply Q|exact W]|exact W].
Qed.

Lemma pop_frame s c n : J s -> 0 <= frm s -> frm s + 12 <= stp s -> load32 (mem s) (frm s + 4) = c -> load32 (mem s) (frm s + 8) = n ->
  (0 <= n -> frm s + 12 + 4 * n <= stp s) ->
  match popAmxFrame s with
  | Ok _ s' => R s s' /\ J s' /\ sp s' = frm s + 12 + 4 * n /\ frm s' = c /\ 0 <= n
  | Fail _ s' => R0 s s'
  | UB u => u <> UBMem
  end.
Proof.
  intros H F0 F1 E2 E3 B. set (f := frm s) in *.
  assert (Lx : forall x y z w, layout (set_sp x (set_hp y (set_hp_scope z (set_frm w s))))).
  { intros. destruct H as [[[] _] _]. now constructor. }
  assert (Ls : stp s = mem_size s - 4 /\ mem_size s + 128 <= two31 /\ 0 <= data_size s) by (dj H; lia).
  unfold popAmxFrame. erewrite bind_ok by reflexivity. erewrite bind_ok by reflexivity. fold f.
  erewrite bind_ok by (apply popStack_at; [exact (Lx f (hp s) (hp_scope s) (frm s))|wsimp; lia]). wsimp. set (h := load32 (mem s) f).
  unfold bind at 1, throwIfBadAddress. destruct (bad_address _ h) eqn:BA; [split; [constructor|]; reflexivity|].
  apply bad_address_spec in BA. destruct BA as [BA _]. wsimp.
  erewrite bind_ok by (unfold rd32; rewrite in_mem_true by (wsimp; lia); reflexivity). wsimp. set (old := load32 (mem s) h).
  do 3 (erewrite bind_ok by reflexivity). wsimp.
  rewrite u32_id by (unfold is_u32, two32, two31 in *; lia).
  unfold bind at 1, throw_if at 1. destruct ((h <? data_size s) || (h >? f + 4)) eqn:BH; [split; [constructor|]; reflexivity|]. cbn [ret].
  erewrite bind_ok by (apply popStack_at; [exact (Lx (f + 4) h old (frm s))|wsimp; lia]). wsimp. rewrite E2.
  erewrite bind_ok by reflexivity. replace (f + 4 + 4) with (f + 8) by lia.
  erewrite bind_ok by (apply popStack_at; [exact (Lx (f + 8) h old c)|wsimp; lia]). wsimp. rewrite E3.
  erewrite bind_ok by reflexivity. wsimp. unfold bind, throw_if.
  destruct (n <? 0) eqn:EN; [split; [constructor|]; reflexivity|]. cbn [orb].
  replace (f + 8 + 4 + n * 4) with (f + 12 + 4 * n) by lia.
  rewrite (wrap32_id (f + 12 + 4 * n)) by bnd. destruct (f + 12 + 4 * n >? stp s) eqn:EB; [split; [constructor|]; reflexivity|].
  cbn [ret]. unfold put. wsimp.
  assert (X : J (set_sp (f + 12 + 4 * n) (set_sp (f + 8 + 4) (set_frm c (set_sp (f + 8) (set_hp h (set_hp_scope old (set_sp (f + 4) (set_sp f s))))))))).
  { split; [split|]; [destruct H as [[[] _] _]; constructor; wsimp; assumption| |wsimp; lia].
    constructor; wsimp; try lia; [rewrite <- E2; apply load32_range|apply load32_range]. }
  split; [split; [split; [constructor|]; reflexivity|apply X]|]. split; [exact X|]. split; [reflexivity|split; [reflexivity|lia]].
Qed.

(* ---- The code of an accepted method ---- *)
Lemma decode_cells code pc i : Forall is_i32 code -> Interp_Model.decode code pc = Some i ->
  match i with
  | STACK v | HEAP v | CONST _ v => is_i32 v
  | INITARRAY _ a _ _ _ _ => is_i32 a
  | PUSH_C l => Forall is_i32 l /\ l <> []
  | _ => True
  end.
Proof.
  intros C H. pose proof (fun k => cell_at_i32 code k C) as R.
  unfold Interp_Model.decode in H. cbv zeta in H.
  destruct (cell_at code pc) as [|q|q]; try discriminate H.
  do 8 (try (destruct q as [q|q|]; try discriminate H)).
  all: match type of H with Some ?x = _ => assert (i = x) as -> by congruence end; clear H.
  all: try exact Logic.I; try apply R.
  all: split; [repeat (apply Forall_cons; [apply R|]); apply Forall_nil|discriminate].
Qed.

Lemma verify_accepted strict rounds fuel env o v : verify strict rounds fuel env o = CGood (Some v) -> accepted (v_code env) (o / 4).
Proof.
  intro V. apply verify_parts in V. destruct V as (_ & B & _). unfold build in B. apply cbind_good in B.
  destruct B as (x & S & _). exists strict, fuel, x. exact S.
Qed.

Lemma depth_reaches code m prev pc d : at_depth code m prev pc d -> reaches code m pc.
Proof. induction 1; [apply reach_first|apply reach_fall; assumption|eapply reach_jump; eassumption]. Qed.

Lemma table_last sizes : Forall (fun s => s = 4 \/ s = 8) sizes -> forall off d,
  off <= d -> last (local_table sizes off) d <= d /\
  forall k, (k < length sizes)%nat -> last (local_table sizes off) d <= nth k (local_table sizes off) 0 /\
    nth k (local_table sizes off) 0 + nth k sizes 0 <= off.
Proof.
  induction 1 as [|s l S _ IH]; intros off d B; [split; [cbn; lia|intros k K; cbn [length] in K; lia]|].
  cbn [local_table]. destruct (IH (off - s) (off - s) ltac:(lia)) as (A1 & A2).
  assert (L : last (off - s :: local_table l (off - s)) d = last (local_table l (off - s)) (off - s)).
  { destruct l as [|s2 l2]; [reflexivity|]. cbn [local_table]. generalize (off - s) (off - s - s2). intros x y.
    transitivity (last (y :: local_table l2 y) d); [reflexivity|]. generalize (local_table l2 y). clear. intro t. revert y.
    induction t as [|z t IH]; intro y; [reflexivity|]. exact (IH z). }
  rewrite L. split; [lia|]. intros [|k] K; cbn [nth].
  - split; lia.
  - cbn [length] in K. destruct (A2 k ltac:(lia)) as (X & Y). split; [exact X|lia].
Qed.

Lemma table_length sizes : forall off, length (local_table sizes off) = length sizes.
Proof. induction sizes as [|s l IH]; intro off; [reflexivity|]. cbn [local_table length]. now rewrite IH. Qed.

Lemma follows_pos ms : forall d max, follows d ms max -> 0 <= d /\ 0 <= d + total ms.
Proof.
  induction ms as [|x l IH]; intros d max F; cbn [follows total fold_right] in *; [lia|].
  destruct F as (F1 & _ & F2). apply IH in F2. unfold total in F2. lia.
Qed.

Lemma slots_named_all i : instr_slots i = map fst (slots_named i).
Proof.
  destruct i; try reflexivity; cbn [instr_slots slots_named]; rewrite map_map; cbn [fst]; symmetry; apply map_id.
Qed.

(* ---- The invariant ---- *)
Section Inv.
Variables (env : venv) (fe : fenv) (p : prog) (t : config -> bool) (args : list Z) (r : rt).
Hypothesis VF : verified env p.
Hypothesis SH : small_heap env.
Hypothesis HO : host_ok env p fe.
Hypothesis RD : ready env args r.

Notation code := (v_code env).
Notation base a := (StackSizeForLocalSlots (a_meth a)).

Definition seat (a : act) (prev : option Z) (d : Z) : Prop :=
  exists o strict rounds fuel v, 0 <= o /\ counts_ok code (o / 4) /\ verify strict rounds fuel env o = CGood (Some v) /\
    a_meth a = mkMeth (v_typed env) (local_table (vi_sizes v) 0) /\ - two31 <= base a /\
    at_depth code (o / 4) prev (a_pc a) d /\ is_i32 (a_pri a) /\ is_i32 (a_alt a) /\ p_validate p o = inl (a_meth a).

Definition pushed (s : rt) (prev : option Z) : Prop :=
  forall q l, prev = Some q -> Interp_Model.decode code q = Some (PUSH_C l) -> load32 (mem s) (sp s) = last l 0.

Fixpoint stacked (callers : list act) (fr : frame) (fs : list frame) : Prop :=
  match callers, fs with
  | [], [] => 0 <= fr_args fr /\ fr_at fr + 12 + 4 * fr_args fr = sp r /\ fr_caller fr = frm r
  | a :: callers', fr2 :: fs' =>
      fr_caller fr = fr_at fr2 /\ fr_at fr + 8 <= fr_at fr2 /\ stacked callers' fr2 fs' /\
      exists q d, seat a (Some q) d /\ (exists o, Interp_Model.decode code q = Some (CALL o)) /\
        fr_at fr + 12 + 4 * fr_args fr = fr_at fr2 + base a - 4 * d
  | _, _ => False
  end.

Definition Inv (c : config) (fs : list frame) : Prop :=
  R r (c_rt c) /\ J (c_rt c) /\
  exists fr fs' prev d, fs = fr :: fs' /\ seat (c_cur c) prev d /\ frm (c_rt c) = fr_at fr /\
    sp (c_rt c) = fr_at fr + base (c_cur c) - 4 * d /\ pushed (c_rt c) prev /\ stacked (c_callers c) fr fs'.

Lemma seat_base a prev d : seat a prev d -> - two31 <= base a <= 0 /\ 0 <= d.
Proof.
  intros (o & strict & rounds & fuel & v & O0 & CK & V & M & B & A & _).
  pose proof (verify_parts _ _ _ _ _ _ V) as (_ & _ & F & _).
  split; [split; [exact B|]|].
  - rewrite M. unfold StackSizeForLocalSlots. cbn [local_offsets]. apply table_last; [exact F|lia].
  - destruct (verify_depth _ _ _ _ _ _ (vf_ok _ _ VF) O0 CK V _ _ _ A) as (_ & i & ms & _ & _ & FO). apply follows_pos in FO. lia.
Qed.

Lemma stacked_top callers : forall fr fs, stacked callers fr fs -> fr_at fr + 12 <= sp r.
Proof.
  induction callers as [|a l IH]; intros fr [|fr2 fs] S; cbn [stacked] in S; try contradiction; [lia|].
  destruct S as (_ & B & S & _). apply IH in S. lia.
Qed.

Lemma stp_sp : sp r <= stp r /\ mem_size r <= 1073741760.
Proof. destruct RD as (_ & P & _ & _ & M & _). destruct P. split; [lia|exact M]. Qed.

Lemma R_same s : R r s -> stp s = stp r /\ mem_size s = mem_size r /\ data_size s = data_size r.
Proof. intros [[[] _] _]. auto. Qed.

Definition good (c : config) (fs : list frame) (x : Interp_Model.outcome) : Prop :=
  match x with
  | Next b c' => Inv c' (frames_after env c c' fs)
  | Done v r' => R r r' /\ J r' /\ sp r' = sp r /\ frm r' = frm r
  | Stop _ r' => R0 r r'
  | Undef u => u <> UBMem
  end.

Lemma slots_good a prev d i : seat a prev d -> Interp_Model.decode code (a_pc a) = Some i -> Interp_Model.slots_ok (a_meth a) i = true.
Proof.
  intros (o & strict & rounds & fuel & v & O0 & CK & V & M & B & A & _) D.
  destruct (verify_operands _ _ _ _ _ _ (vf_ok _ _ VF) O0 CK V) as (args' & _ & OP).
  destruct (OP _ _ _ A) as (i' & D' & (SL & _)). rewrite D in D'. injection D' as <-.
  unfold Interp_Model.slots_ok. rewrite M. cbn [typed local_offsets]. destruct (v_typed env) eqn:T; [|reflexivity]. cbn [negb orb].
  rewrite table_length, slots_named_all. apply forallb_forall. intros x X. apply in_map_iff in X.
  destruct X as ((y & w) & <- & X). cbn [fst]. rewrite Forall_forall in SL. apply SL in X. cbn [slot_ok] in X. rewrite T in X.
  destruct (y <? 0) eqn:Y; lia.
Qed.

(* What an instruction relies on holds. *)
Lemma operand_good c fr fs' prev d i : R r (c_rt c) -> J (c_rt c) -> seat (c_cur c) prev d -> frm (c_rt c) = fr_at fr ->
  sp (c_rt c) = fr_at fr + base (c_cur c) - 4 * d -> stacked (c_callers c) fr fs' ->
  Interp_Model.decode code (a_pc (c_cur c)) = Some i -> relies env c (fr :: fs') ->
  operand_ok (p_natives p) (a_meth (c_cur c)) (mkIst (c_rt c) (a_pri (c_cur c)) (a_alt (c_cur c))) i /\
  moving_ok (p_natives p) (mkIst (c_rt c) (a_pri (c_cur c)) (a_alt (c_cur c))) i.
Proof.
  intros HR HJ SE FE SE2 ST D RL. pose proof (seat_base _ _ _ SE) as (B1 & B2). pose proof (stacked_top _ _ _ ST) as TP.
  pose proof stp_sp as (P1 & P2). pose proof (R_same _ HR) as (P3 & P4 & P5).
  destruct SE as (o & strict & rounds & fuel & v & O0 & CK & V & M & B & A & HP & HA & PV0).
  pose proof (verify_parts _ _ _ _ _ _ V) as (_ & _ & FS & _).
  destruct (verify_operands _ _ _ _ _ _ (vf_ok _ _ VF) O0 CK V) as (args' & _ & OP).
  destruct (OP _ _ _ A) as (i' & D' & (SL & GL & OQ)). rewrite D in D'. injection D' as <-.
  pose proof (decode_cells _ _ _ (proj1 (vf_ok _ _ VF)) D) as DC.
  unfold relies in RL. rewrite D in RL.
  assert (VM : mem_size (c_rt c) = v_mem env) by (destruct RD as (_ & _ & X & _); congruence).
  assert (LY : stp (c_rt c) = mem_size (c_rt c) - 4 /\ 0 <= sp (c_rt c) /\ data_size (c_rt c) <= hp (c_rt c) <= sp (c_rt c) /\ 0 <= hp (c_rt c) /\ mem_size (c_rt c) + 128 <= two31)
    by (dj HJ; lia).
  assert (S64 : forall w, slots_named i = [(w, 8)] ->
    (v_typed env = false \/ w < 0 -> slot64_ok (c_rt c) (wrap32 (frm (c_rt c) + StackOffset (a_meth (c_cur c)) w))) ->
    slot64_ok (c_rt c) (wrap32 (frm (c_rt c) + StackOffset (a_meth (c_cur c)) w))).
  { intros w W X. destruct (v_typed env) eqn:T; [|apply X; now left]. destruct (w <? 0) eqn:W0; [apply X; right; lia|].
    clear X. rewrite W in SL. apply Forall_inv in SL. cbn [slot_ok] in SL. rewrite T, W0 in SL. destruct SL as (SL1 & [SL2|SL2]); [discriminate|].
    unfold StackOffset. rewrite M. cbn [typed negb local_offsets]. rewrite W0.
    destruct (table_last _ FS 0 0 ltac:(lia)) as (_ & TL). destruct (TL (Z.to_nat w) ltac:(lia)) as (TL1 & TL2). rewrite SL2 in TL2.
    assert (BB : base (c_cur c) = last (local_table (vi_sizes v) 0) 0) by (rewrite M; reflexivity). rewrite <- BB in TL1. clear TL BB.
    set (off := nth _ _ _) in *. rewrite wrap32_id by (unfold is_i32; unfold two31 in *; lia).
    split; [|lia]. split; [lia|]. unfold in_gap. lia. }
  destruct i; cbn [operand_ok moving_ok] in *; cbn [rts pri alt]; try (split; exact Logic.I).
  all: try (split; [|exact Logic.I]).
  all: try (apply S64; [reflexivity|exact RL]).
  - (* STACK *)
    assert (AM : amount_ok (c_rt c) a) by (split; [exact DC|]; unfold two31 in *; lia). split; [exact AM|split; [exact AM|apply OQ]].
  - (* HEAP *)
    assert (AM : amount_ok (c_rt c) a).
    { split; [exact DC|]. pose proof (SH _ _ D). unfold two31 in *. lia. }
    split; exact AM.
  - rewrite VM. exact OQ.
  - rewrite VM. exact OQ.
  - apply (vf_natives _ _ VF). exact OQ.
  - split; [apply (vf_natives _ _ VF), OQ|]. split; [lia|]. intros nt f E1 E2. exact (ho_replaced _ _ _ HO _ _ _ _ _ D E1 E2).
  - assert (4 * n < two31) by (unfold two31 in *; lia). split; [|split; [lia|split; [assumption|exact RL]]].
    split; [lia|split; [assumption|]]. split; [lia|split; [lia|exact RL]].
  - destruct OQ as (_ & O1 & O2 & O3 & O4 & _). destruct RL as (R1 & R2 & R3).
    split; [exact O1|split; [exact O2|split; [exact O3|]]]. split; [destruct r0; exact R1|]. auto.
  - split; [exact Logic.I|exact RL].
Qed.

(* An instruction that falls through keeps the invariant. *)
Lemma exec_step c fs i b : Inv c fs -> relies env c fs -> Interp_Model.decode code (a_pc (c_cur c)) = Some i ->
  falls_through code (a_pc (c_cur c)) -> (forall c', frames_after env c c' fs = fs) -> (forall o, i <> CALL o) ->
  good c fs
    (if negb (Interp_Model.slots_ok (a_meth (c_cur c)) i) then Undef UBMem else
     match exec false fe (p_natives p) (a_meth (c_cur c)) i (mkIst (c_rt c) (a_pri (c_cur c)) (a_alt (c_cur c))) with
     | Ok _ s => Next b (mkConfig (rts s) (mkAct (a_meth (c_cur c)) (a_pc (c_cur c) + insn_size code (a_pc (c_cur c))) (pri s) (alt s)) (c_callers c))
     | Fail e s => Stop e (rts s)
     | UB u => Undef u
     end).
Proof.
  intros (HR & HJ & fr & fs' & prev & d & -> & SE & FE & SP & PU & ST) RL D FT FA NC.
  rewrite (slots_good _ _ _ _ SE D). cbn [negb].
  destruct (operand_good c fr fs' prev d i HR HJ SE FE SP ST D RL) as (OK & MV).
  set (st := mkIst _ _ _) in *. assert (SE' := SE).
  destruct SE' as (o & strict & rounds & fuel & v & O0 & CK & V & M & B & A & HP & HA & PV0).
  destruct (verify_depth _ _ _ _ _ _ (vf_ok _ _ VF) O0 CK V _ _ _ A) as (_ & i' & ms & D' & MS & _).
  rewrite D in D'. injection D' as <-.
  pose proof (exec_safe fe _ (a_meth (c_cur c)) (ho_good _ _ _ HO) i st (R_I _ _ HR) HP HA OK) as SA. unfold safe_at, wp in SA.
  destruct (exec _ _ _ _ _ st) as [[] st'|e st'|u] eqn:E; cbn [good].
  - destruct (exec_moves fe _ (a_meth (c_cur c)) (ho_good _ _ _ HO) (ho_result _ _ _ HO) code prev i ms st st' HJ MV MS E) as (J' & SP' & FR').
    assert (CN : const_ok i).
    { pose proof (decode_cells _ _ _ (proj1 (vf_ok _ _ VF)) D) as DC. destruct i; try exact Logic.I. exact DC. }
    assert (RG : regs32 st') by (apply (exec_ranged fe (p_natives p) (a_meth (c_cur c)) i st st');
      [intros; eapply (ho_result _ _ _ HO); eassumption|exact (ho_float _ _ _ HO)|exact CN|exact (R_I _ _ HR)|split; assumption|exact E]).
    rewrite FA. split; [exact (R_trans _ _ _ HR SA)|]. split; [exact J'|]. cbn [c_rt c_cur c_callers a_meth].
    exists fr, fs', (Some (a_pc (c_cur c))), (d + total ms). split; [reflexivity|].
    split; [|split; [rewrite FR'; exact FE|split; [rewrite SP'; unfold st; cbn [rts]; lia|split; [|exact ST]]]].
    + exists o, strict, rounds, fuel, v. cbn [a_meth a_pc a_pri a_alt]. do 5 (split; [assumption|]).
      split; [exact (depth_fall code (o / 4) prev (a_pc (c_cur c)) d i ms A D MS FT)|]. split; [apply RG|split; [apply RG|exact PV0]].
    + intros q l E1 E2. injection E1 as <-. rewrite D in E2. injection E2 as ->.
      pose proof (decode_cells _ _ _ (proj1 (vf_ok _ _ VF)) D) as (DC & DN).
      cbn [exec] in E. unfold lift in E. cbn [rts] in E.
      destruct (push_list l (rts st)) as [[] s'| |] eqn:PL; try discriminate.
      assert (rts st' = s') as -> by (injection E as <-; reflexivity).
      exact (push_list_top l _ _ HJ DC DN PL).
  - exact (R0_trans _ _ _ (R_R0 _ _ HR) SA).
  - exact SA.
Qed.

Lemma Inv_placed c fs : Inv c fs -> exists ms, placed p c ms /\ Forall (counts_ok code) ms.
Proof.
  intros (_ & _ & fr & fs' & prev & d & _ & SE & _ & _ & _ & ST).
  assert (S1 : forall a prev d, seat a prev d -> exists m, inside code a m /\ counts_ok code m).
  { intros a pr dd (o & strict & rounds & fuel & v & O0 & CK & V & _ & _ & A & _). exists (o / 4). split; [|exact CK].
    split; [apply Z.div_pos; lia|]. split; [exact (verify_accepted _ _ _ _ _ _ V)|exact (depth_reaches _ _ _ _ _ A)]. }
  assert (S2 : forall l fr fs, stacked l fr fs -> exists ms, Forall2 (inside code) l ms /\ Forall (counts_ok code) ms).
  { induction l as [|a l IH]; intros f0 [|f2 f3] S; cbn [stacked] in S; try contradiction; [exists []; split; constructor|].
    destruct S as (_ & _ & S & q & dd & SE2 & _). destruct (IH _ _ S) as (ms & X & Y). destruct (S1 _ _ _ SE2) as (m & X1 & Y1).
    exists (m :: ms). split; constructor; assumption. }
  destruct (S1 _ _ _ SE) as (m & X1 & Y1). destruct (S2 _ _ _ ST) as (ms & X & Y). exists (m :: ms).
  split; [|constructor; assumption]. unfold placed. rewrite (vf_code _ _ VF). constructor; assumption.
Qed.

(* A jump keeps it. *)
Lemma jump_step c fs (b : bool) c' i ms prev d fr fs' m : R r (c_rt c) -> J (c_rt c) -> fs = fr :: fs' ->
  seat (c_cur c) prev d -> frm (c_rt c) = fr_at fr -> sp (c_rt c) = fr_at fr + base (c_cur c) - 4 * d -> stacked (c_callers c) fr fs' ->
  Interp_Model.decode code (a_pc (c_cur c)) = Some i -> moves code prev i = Some ms -> total ms = 0 -> (forall l, i <> PUSH_C l) ->
  (forall x, at_depth code x prev (a_pc (c_cur c)) d -> at_depth code x (Some (a_pc (c_cur c))) m (d + total ms)) ->
  frames_after env c c' fs = fs ->
  c' = mkConfig (c_rt c) (mkAct (a_meth (c_cur c)) m (a_pri (c_cur c)) (a_alt (c_cur c))) (c_callers c) ->
  good c fs (Next b c').
Proof.
  intros HR HJ -> SE FE SP ST D MS T0 NP AD FA ->. cbn [good]. rewrite FA. split; [exact HR|]. split; [exact HJ|].
  cbn [c_rt c_cur c_callers a_meth]. exists fr, fs', (Some (a_pc (c_cur c))), d. split; [reflexivity|].
  split; [|split; [exact FE|split; [exact SP|split; [|exact ST]]]].
  - destruct SE as (o' & strict & rounds & fuel & v & O0 & CK & V & M & B & A & HP & HA & PV0).
    exists o', strict, rounds, fuel, v. cbn [a_meth a_pc a_pri a_alt]. do 5 (split; [assumption|]).
    split; [|split; [assumption|split; assumption]]. specialize (AD _ A). rewrite T0, Z.add_0_r in AD. exact AD.
  - intros q l E1 E2. injection E1 as <-. rewrite D in E2. injection E2 as E2. now apply NP in E2.
Qed.

Lemma step_good c fs : Inv c fs -> relies env c fs -> good c fs (step false fe p t c).
Proof.
  intros IN RL. assert (IN' := IN). destruct (Inv_placed _ _ IN) as (ms & PL & CKS).
  destruct IN as (HR & HJ & fr & fs' & prev & d & EF & SE & FE & SP & PU & ST).
  assert (SE' := SE). destruct SE' as (o & strict & rounds & fuel & v & O0 & CK & V & M & B & A & HP & HA & PV0).
  destruct (verify_depth _ _ _ _ _ _ (vf_ok _ _ VF) O0 CK V _ _ _ A) as (_ & i & mv & D & MS & FO).
  assert (JN := jump_no_fault false fe p t). rewrite (vf_code _ _ VF) in JN. specialize (JN (vf_ok _ _ VF) c ms PL).
  destruct (flow_ok code (o / 4) (vf_ok _ _ VF) (a_pc (c_cur c)) (verify_accepted _ _ _ _ _ _ V) (depth_reaches _ _ _ _ _ A))
    as ((SW & (B1 & B2 & B3 & B4 & B5 & B6)) & DN & FT & JT).
  assert (EN : Interp_Model.ncells p = Z.of_nat (length code)) by (unfold Interp_Model.ncells; now rewrite (vf_code _ _ VF)).
  assert (JS : forall b c' o', jumps_to code (a_pc (c_cur c)) o' ->
    (forall chk, do_jump p t c chk o' (a_pc (c_cur c) + insn_size code (a_pc (c_cur c))) = Next b c' -> good c fs (Next b c'))).
  { intros b c' o' JO chk Q. unfold do_jump in Q. cbv zeta in Q.
    destruct (chk && _ && _); [discriminate|]. match type of Q with (if ?e then _ else _) = _ => destruct e; [discriminate|] end.
    match type of Q with Next _ ?x = _ => assert (E' : c' = x) by congruence end.
    apply (jump_step c fs b c' i mv prev d fr fs' (o' / 4)); try assumption.
    - unfold jumps_to in JO. rewrite D in JO. destruct i; try contradiction; cbn [moves] in MS; injection MS as <-; reflexivity.
    - intros l ->. unfold jumps_to in JO. rewrite D in JO. exact JO.
    - intros x AX. exact (depth_jump code x prev (a_pc (c_cur c)) d i mv o' AX D MS JO).
    - unfold frames_after. unfold jumps_to in JO. rewrite D in *. destruct i; try contradiction; reflexivity. }
  unfold step in *. cbv zeta in *. rewrite (vf_code _ _ VF) in *. set (pc := a_pc (c_cur c)) in *.
  destruct ((pc <? 0) || (Interp_Model.ncells p <? pc)) eqn:E1; [lia|].
  destruct (pc =? Interp_Model.ncells p) eqn:E2; [lia|].
  destruct ((cell_at code pc =? OP_PROC) || (cell_at code pc =? OP_ENDPROC)) eqn:E3; [lia|].
  rewrite D in *.
  destruct (Interp_Model.ncells p <? pc + insn_size code pc) eqn:E4; [lia|].
  destruct i;
    try (apply exec_step; [exact IN'|exact RL|exact D|unfold falls_through; fold pc; rewrite D; exact Logic.I
      |intro; unfold frames_after; fold pc; rewrite D; reflexivity|discriminate]).
  all: try (destruct (decode_proc code pc (or_introl D)); lia).
  all: try (destruct (decode_proc code pc (or_intror D)); lia).
  - (* RETN *)
    unfold relies in RL. fold pc in RL. rewrite D in RL. subst fs. cbn [hd_error] in RL. injection RL as RL.
    pose proof (stacked_top _ _ _ ST) as TP. pose proof stp_sp as (P1 & P2). pose proof (R_same _ HR) as (P3 & P4 & P5).
    assert (C1 : load32 (mem (c_rt c)) (frm (c_rt c) + 4) = fr_caller fr) by (rewrite RL; reflexivity).
    assert (C2 : load32 (mem (c_rt c)) (frm (c_rt c) + 8) = fr_args fr) by (rewrite RL; reflexivity).
    assert (AR : fr_at fr + 12 + 4 * fr_args fr <= stp (c_rt c)).
    { destruct (c_callers c) as [|a l]; destruct fs' as [|f2 f3]; cbn [stacked] in ST; try contradiction; [lia|].
      destruct ST as (_ & _ & S2 & q & dd & SE2 & _ & S3). apply stacked_top in S2. apply seat_base in SE2. lia. }
    pose proof (seat_base _ _ _ SE) as (BB & D0). assert (F0 : 0 <= frm (c_rt c)) by (dj HJ; lia).
    pose proof (pop_frame (c_rt c) _ _ HJ F0 ltac:(lia) C1 C2 ltac:(lia)) as PF.
    destruct (popAmxFrame (c_rt c)) as [[] s'|e s'|u]; cbn [good].
    + destruct PF as (Q1 & Q2 & Q3 & Q4 & Q5). rewrite FE in Q3. unfold return_to.
      destruct (c_callers c) as [|a l] eqn:EC; destruct fs' as [|f2 f3]; cbn [stacked] in ST; try contradiction.
      * cbn [good]. split; [exact (R_trans _ _ _ HR Q1)|]. split; [exact Q2|]. split; [lia|]. destruct ST as (_ & _ & ST). congruence.
      * cbn [good]. destruct ST as (S0 & S1 & S2 & q & dd & SE2 & (oc & DQ) & S3).
        unfold frames_after. fold pc. rewrite D. cbn [tl].
        split; [exact (R_trans _ _ _ HR Q1)|]. split; [exact Q2|]. cbn [c_rt c_cur c_callers a_meth].
        exists f2, f3, (Some q), dd. split; [reflexivity|]. split; [|split; [congruence|split; [lia|split; [|exact S2]]]].
        -- destruct SE2 as (o2 & strict2 & rounds2 & fuel2 & v2 & X). exists o2, strict2, rounds2, fuel2, v2. cbn [a_meth a_pc a_pri a_alt].
           destruct X as (X1 & X2 & X3 & X4 & X5 & X6 & X7 & X8 & X9). do 6 (split; [assumption|]). split; [assumption|split; assumption].
        -- intros q' l' Y1 Y2. injection Y1 as <-. rewrite DQ in Y2. discriminate.
    + exact (R0_trans _ _ _ (R_R0 _ _ HR) PF).
    + exact PF.
  - (* CALL *)
    rename o0 into target. destruct (p_validate p target) as [mi|e] eqn:PV; [|exact (R_R0 _ _ HR)].
    destruct (vf_method _ _ VF _ _ PV) as (T0 & T1 & T2 & strict2 & rounds2 & fuel2 & v2 & T3 & T4).
    pose proof (verify_parts _ _ _ _ _ _ T3) as (_ & _ & FS & _).
    assert (BI : - two31 <= StackSizeForLocalSlots mi <= 0).
    { split; [exact T2|]. rewrite T4. unfold StackSizeForLocalSlots. cbn [local_offsets]. apply table_last; [exact FS|lia]. }
    pose proof (enter_safe mi _ (R_I _ _ HR) BI) as ES.
    destruct (Interp_Model.enter mi (c_rt c)) as [[] s'|e s'|u] eqn:EE; cbn [good];
      [|exact (R0_trans _ _ _ (R_R0 _ _ HR) ES)|exact ES].
    destruct (enter_J _ _ _ HJ BI EE) as (Q1 & Q2 & Q3 & Q4 & Q5). pose proof (seat_base _ _ _ SE) as (BB & D0).
    unfold frames_after. fold pc. rewrite D. cbn [c_rt].
    split; [exact (R_trans _ _ _ HR ES)|]. split; [exact Q1|]. cbn [c_rt c_cur c_callers a_meth].
    exists (frame_of s'), fs, None, 0. split; [reflexivity|]. split; [|split; [reflexivity|split; [cbn [fr_at frame_of]; lia|split; [discriminate|]]]].
    + exists target, strict2, rounds2, fuel2, v2. cbn [a_meth a_pc a_pri a_alt]. do 5 (split; [assumption|]).
      split; [apply depth_first|]. split; [unfold is_i32, two31; lia|]. split; [unfold is_i32, two31; lia|exact PV].
    + subst fs. cbn [stacked]. unfold frame_of at 1 2. cbn [fr_caller fr_at]. split; [congruence|]. split; [lia|]. split; [exact ST|].
      destruct prev as [q|]; cbn [moves] in MS; [|discriminate].
      destruct (Interp_Model.decode code q) as [iq|] eqn:DQ; [|discriminate].
      destruct iq; try discriminate. injection MS as <-.
      match goal with DQ : Interp_Model.decode _ q = Some (PUSH_C ?l) |- _ => set (vs := l) in * end.
      exists pc, (d + total [- (last vs 0 + 1)]). split; [|split; [eexists; exact D|]].
      * exists o, strict, rounds, fuel, v. cbn [a_meth a_pc a_pri a_alt]. do 5 (split; [assumption|]). split; [|split; [assumption|split; assumption]].
        apply (depth_fall code (o / 4) (Some q) pc d (CALL target)); [exact A|exact D|cbn [moves]; rewrite DQ; reflexivity|].
        unfold falls_through. rewrite D. exact Logic.I.
      * cbn [total fold_right frame_of fr_at fr_args a_meth]. rewrite Q5, (PU q vs eq_refl DQ). lia.
  - (* JUMP *)
    assert (JX : jumps_to code pc o0) by (unfold jumps_to; rewrite D; reflexivity).
    destruct (JN (ex_intro _ o0 JX) CKS) as [(b & c' & Q)|Q]; rewrite Q; [|exact (R_R0 _ _ HR)].
    exact (JS b c' o0 JX true Q).
  - (* JCMP *)
    assert (JX : jumps_to code pc o0) by (unfold jumps_to; rewrite D; reflexivity).
    destruct (JN (ex_intro _ o0 JX) CKS) as [(b & c' & Q)|Q]; rewrite Q; [|exact (R_R0 _ _ HR)].
    destruct (eval_cmp _ _ _); [exact (JS b c' o0 JX true Q)|].
    match type of Q with Next _ ?x = _ => assert (E' : c' = x) by congruence end.
    apply (jump_step c fs b c' (JCMP c0 o0) mv prev d fr fs' (pc + insn_size code pc)); try assumption; try discriminate.
    + cbn [moves] in MS. injection MS as <-. reflexivity.
    + intros x AX. apply (depth_fall code x prev pc d _ mv AX D MS). unfold falls_through. rewrite D. exact Logic.I.
    + unfold frames_after. fold pc. rewrite D. reflexivity.
  - (* SWITCH *)
    assert (JX : jumps_to code pc (cell_at code (tbl / 4 + 2))) by (unfold jumps_to; rewrite D; left; reflexivity).
    destruct (JN (ex_intro _ _ JX) CKS) as [(b & c' & Q)|Q]; rewrite Q; [|exact (R_R0 _ _ HR)].
    match type of Q with (if ?e then _ else _) = _ => destruct e; [discriminate|] end.
    match type of Q with (if ?e then _ else _) = _ => destruct e eqn:EB; [discriminate|] end.
    eapply JS; [|exact Q]. unfold jumps_to. rewrite D.
    destruct (find_case _ _ _ _) as [o1|] eqn:FC; [right|left; reflexivity].
    apply find_case_in in FC. destruct FC as (k & L & ->). exists k. split; [lia|]. f_equal. lia.
Qed.

(* ---- From the start ---- *)
Lemma store_args l : forall a s, I s -> 0 <= a -> a + 4 * Z.of_nat (length l) <= mem_size s -> Forall is_i32 l ->
  exists s', (fix store (l : list Z) (a : Z) : RM unit :=
            match l with [] => ret tt | v :: l' => wr32 a v;;; store l' (a + 4) end) l a s = Ok tt s' /\
    s' = set_mem (mem s') s /\ (forall x, x < a \/ a + 4 * Z.of_nat (length l) <= x -> mem s' x = mem s x) /\
    (l <> [] -> load32 (mem s') a = hd 0 l).
Proof.
  induction l as [|v l IH]; intros a s H A L F.
  - exists s. split; [reflexivity|]. split; [destruct s; reflexivity|]. split; [reflexivity|contradiction].
  - cbn [length] in L. unfold bind at 1. unfold wr32. rewrite in_mem_true by lia. inversion F as [|? ? F1 F2]; subst.
    destruct (IH (a + 4) (set_mem (store32 (mem s) a v) s)) as (s' & E & S & O & _); [destruct H as [[] []]; split; constructor; wsimp; assumption|lia|wsimp; lia|assumption|].
    exists s'. split; [exact E|]. split; [rewrite S; destruct s; reflexivity|]. wsimp. split.
    + intros x Hx. cbn [length] in Hx. rewrite O by lia. apply store32_out. lia.
    + intros _. cbn [hd]. rewrite (load32_ext (mem s') (store32 (mem s) a v)) by (intros; apply O; lia).
      rewrite load32_store32_same. now apply wrap32_id.
Qed.

Lemma start_good o mi : p_validate p o = inl mi ->
  match start mi o args r with
  | Next b c => Inv c [frame_of (c_rt c)]
  | Done _ r' | Stop _ r' => R0 r r'
  | Undef u => u <> UBMem
  end.
Proof.
  intro PV. destruct RD as (IB & PO & VM & VD & MB & FA & HR).
  destruct (vf_method _ _ VF _ _ PV) as (T0 & T1 & T2 & strict2 & rounds2 & fuel2 & v2 & T3 & T4).
  pose proof (verify_parts _ _ _ _ _ _ T3) as (_ & _ & FS & _).
  assert (BI : - two31 <= StackSizeForLocalSlots mi <= 0).
  { split; [exact T2|]. rewrite T4. unfold StackSizeForLocalSlots. cbn [local_offsets]. apply table_last; [exact FS|lia]. }
  unfold start. cbv zeta. set (n := Z.of_nat (length args)) in *.
  assert (HJ : J r) by (split; [exact IB|destruct PO; lia]). destruct IB as [LY PI].
  assert (K : 0 <= n /\ 0 <= hp r /\ sp r <= stp r /\ stp r = mem_size r - 4 /\ mem_size r + 128 <= two31)
    by (unfold n; destruct PO, LY, PI; lia). destruct K as (K1 & K2 & K3 & K4 & K5).
  rewrite (wrap32_id (sp r - 4 * (n + 1))) by bnd.
  set (q := sp r - 4 * (n + 1)).
  assert (H1 : J (set_sp q r)) by (apply J_sp; [exact HJ|unfold q; lia..]).
  destruct (store_args (n :: args) q (set_sp q r)) as (s1 & E & S & O & HD);
    [apply H1|unfold q; lia|unfold q; wsimp; cbn [length]; unfold n in *; lia|constructor; [bnd|exact FA]|].
  rewrite E. clear E.
  assert (J1 : J s1) by (rewrite S; apply J_mem; exact H1).
  assert (R1 : R r s1).
  { split; [|apply J1]. split; [rewrite S; constructor; reflexivity|]. intros x X. rewrite O; [reflexivity|]. cbn [length]. unfold q, n in *. lia. }
  specialize (HD ltac:(discriminate)). cbn [hd] in HD.
  assert (SP1 : sp s1 = q /\ frm s1 = frm r) by (rewrite S; split; reflexivity). destruct SP1 as (SP1 & FR1).
  pose proof (enter_safe mi _ (R_I _ _ R1) BI) as ES.
  destruct (Interp_Model.enter mi s1) as [[] s'|e s'|u] eqn:EE;
      [|exact (R0_trans _ _ _ (R_R0 _ _ R1) ES)|exact ES].
  destruct (enter_J _ _ _ J1 BI EE) as (Q1 & Q2 & Q3 & Q4 & Q5).
  split; [exact (R_trans _ _ _ R1 ES)|]. split; [exact Q1|]. cbn [c_rt c_cur c_callers a_meth].
  exists (frame_of s'), [], None, 0. split; [reflexivity|]. split; [|split; [reflexivity|split; [cbn [fr_at frame_of]; lia|split; [discriminate|]]]].
  - exists o, strict2, rounds2, fuel2, v2. cbn [a_meth a_pc a_pri a_alt]. do 5 (split; [assumption|]).
    split; [apply depth_first|]. split; [unfold is_i32, two31; lia|]. split; [unfold is_i32, two31; lia|exact PV].
  - cbn [stacked]. unfold frame_of. cbn [fr_caller fr_at fr_args]. rewrite Q5, SP1, HD. split; [lia|]. split; [unfold q in *; lia|congruence].
Qed.

Theorem monitored_inv c fs : monitored env fe p t args r c fs -> Inv c fs.
Proof.
  induction 1 as [o mi b c PV E|c fs b c' _ IH RL E].
  - pose proof (start_good o mi PV) as G. rewrite E in G. exact G.
  - pose proof (step_good c fs IH RL) as G. rewrite E in G. exact G.
Qed.

End Inv.

(* ---- The statements ---- *)
Theorem run_confined env fe p t args r : verified env p -> small_heap env -> host_ok env p fe -> ready env args r ->
  (forall o mi, p_validate p o = inl mi -> start mi o args r <> Undef UBMem) /\
  forall c fs, monitored env fe p t args r c fs -> confined r (c_rt c) /\ in_bounds (c_rt c) /\
    (relies env c fs ->
     match step false fe p t c with
     | Next _ c' => confined r (c_rt c') /\ in_bounds (c_rt c')
     | Done _ r' | Stop _ r' => confined r r'
     | Undef u => u <> UBMem
     end).
Proof.
  intros VF SH HO RD. split.
  - intros o mi PV E. pose proof (start_good env p args r VF RD o mi PV) as G. rewrite E in G. contradiction.
  - intros c fs M. pose proof (monitored_inv env fe p t args r VF SH HO RD c fs M) as IN.
    split; [apply IN|]. split; [apply IN|]. intro RL.
    pose proof (step_good env fe p t args r VF SH HO RD c fs IN RL) as G. destruct (step false fe p t c) as [b c'|v' r'|e r'|u]; cbn [good] in G.
    + split; apply G.
    + apply G.
    + exact G.
    + exact G.
Qed.

Theorem run_ordered env fe p t args r : verified env p -> small_heap env -> host_ok env p fe -> ready env args r ->
  forall c fs, monitored env fe p t args r c fs -> pointers_ok (c_rt c) /\
    (relies env c fs -> forall v r', step false fe p t c = Done v r' -> pointers_ok r').
Proof.
  intros VF SH HO RD c fs M. pose proof (monitored_inv env fe p t args r VF SH HO RD c fs M) as IN. assert (IN' := IN).
  pose proof (stp_sp env args r RD) as (P1 & P2). split.
  - destruct IN as (HR & HJ & fr & fs' & prev & d & _ & SE & FE & SP & _ & ST). pose proof (seat_base env p VF _ _ _ SE) as (B1 & B2).
    pose proof (stacked_top env p r _ _ _ ST) as TP. pose proof (R_same r _ HR) as (P3 & _). constructor; try apply HJ. lia.
  - intros RL v r' E. pose proof (step_good env fe p t args r VF SH HO RD c fs IN' RL) as G. rewrite E in G. cbn [good] in G.
    destruct G as (G1 & G2 & G3 & _). pose proof (R_same r _ G1) as (P3 & _). constructor; try apply G2. lia.
Qed.

Theorem run_depth env fe p t args r : verified env p -> small_heap env -> host_ok env p fe -> ready env args r ->
  forall c fs, monitored env fe p t args r c fs ->
  (exists o prev d, p_validate p o = inl (a_meth (c_cur c)) /\ at_depth (v_code env) (o / 4) prev (a_pc (c_cur c)) d /\
     sp (c_rt c) = frm (c_rt c) + StackSizeForLocalSlots (a_meth (c_cur c)) - 4 * d) /\
  map fr_at fs = frm (c_rt c) :: map fr_at (tl fs) /\ length fs = length (c_cur c :: c_callers c) /\
  (relies env c fs -> forall v r', step false fe p t c = Done v r' -> sp r' = sp r /\ frm r' = frm r).
Proof.
  intros VF SH HO RD c fs M. pose proof (monitored_inv env fe p t args r VF SH HO RD c fs M) as IN. assert (IN' := IN).
  destruct IN as (HR & HJ & fr & fs' & prev & d & -> & SE & FE & SP & _ & ST). split; [|split; [|split]].
  - destruct SE as (o & strict & rounds & fuel & v & O0 & CK & V & M1 & B & A & _ & _ & PV). exists o, prev, d. split; [exact PV|]. split; [exact A|]. lia.
  - cbn [map tl]. now rewrite FE.
  - cbn [length]. f_equal. revert ST. clear. generalize (c_callers c). intro l. revert fr fs'.
    induction l as [|a l IH]; intros fr [|f2 fs'] ST; cbn [stacked] in ST; try contradiction; [reflexivity|].
    cbn [length]. f_equal. apply (IH f2). apply ST.
  - intros RL v r' E. pose proof (step_good env fe p t args r VF SH HO RD c _ IN' RL) as G. rewrite E in G. cbn [good] in G.
    destruct G as (_ & _ & G3 & G4). auto.
Qed.
