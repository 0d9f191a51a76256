(* Where compiled code and the interpreter part, and a sequence on which they agree: C46. *)
From Verif Require Import Base Rt_Model Array_Model Interp_Model Rt_Spec Mem_Spec X64_Model X64_Spec Base_Proofs Rt_Proofs.
From Coq Require Import ZifyBool Lia.
Ltac Zify.zify_post_hook ::= Z.div_mod_to_equations.

Definition no_fp : fpu := mkFpu (fun _ _ _ => 0) (fun _ _ => None) (fun _ => 0) (fun _ => 0) (fun _ => 0) (fun _ => 0) (fun _ => 0) (fun _ _ => 0).
Definition no_fe : fenv := mkFenv (fun _ _ => 0) (fun _ _ _ => 0) (fun _ => 0) (fun _ _ _ => 0) (fun _ _ => 0).
Definition no_natives : Z -> option native := fun _ => None.
Definition no_junk : gpr -> Z := fun _ => 0.
Definition no_locals : meth := mkMeth false [].
(* Memory holding [f a] at each address. *)
Definition small (f : memory) (h s fr : Z) : rt := mkRt f 65536 1024 h s 65532 fr (-1) true true.
Definition machine (base : Z) (s : ist) : xst :=
  mkX (fun q => match q with RAX => u32 (pri s) | RDX => u32 (alt s) | RBX => base + frm (rts s) | R14 => base + sp (rts s) | R15 => base | _ => 0 end)
      None 0 0 (fun f => match f with CHp => u32 (hp (rts s)) | CFrm => u32 (frm (rts s)) | CSp => 0 | CScope => u32 (hp_scope (rts s)) end)
      (mem (rts s)) [] None.
Lemma machine_holds base s : holds base true true s (machine base s).
Proof. constructor; reflexivity. Qed.
Lemma small_running f h s fr p a : (forall z, 0 <= f z < 256) -> 1024 <= h <= s -> s <= 65532 -> 0 <= fr < 65536 -> is_i32 p -> is_i32 a ->
  running (mkIst (small f h s fr) p a).
Proof.
  intros M H S F P A. constructor; cbn [rts pri alt frm small mem_size]; auto.
  split; constructor; cbn [mem_size data_size hp sp stp hp_scope frm small]; unfold is_i32, two31; lia.
Qed.

Section One.
Variables (fe : fenv) (fp : fpu) (base : Z) (mi : meth) (l : list instr) (s : ist).
Notation XI := (exec_all false fe no_natives mi l s).
Notation XC := (match emit_all (rts s) no_natives mi l with Some c => Some (xrun base (rts s) fp no_natives no_junk c 0 (machine base s)) | None => None end).

(* The interpreter's outcome, the compiled code's. *)
Definition both (ti : res ist unit -> bool) (tc : xres -> bool) : bool := match XC with Some r => ti XI && tc r | None => false end.
Lemma both_split ti tc : both ti tc = true ->
  exists c, emit_all (rts s) no_natives mi l = Some c /\ ti XI = true /\ tc (xrun base (rts s) fp no_natives no_junk c 0 (machine base s)) = true.
Proof. unfold both. destruct (emit_all (rts s) no_natives mi l) as [c|]; [|discriminate]. intros H. apply andb_true_iff in H. exists c. tauto. Qed.
End One.
Definition is_ok (r : res ist unit) : bool := match r with Ok _ _ => true | _ => false end.
Definition is_fail (k : Z) (r : res ist unit) : bool := match r with Fail e _ => err_code e =? k | _ => false end.
Definition c_ok (r : xres) : bool := match r with XOk _ => true | _ => false end.
Definition c_fault (r : xres) : bool := match r with XUB UBMem => true | _ => false end.
Definition c_err (k : Z) (r : xres) : bool := match r with XErr e _ => e =? k | _ => false end.
Lemma is_ok_iff r : is_ok r = true -> exists s', r = Ok tt s'. Proof. destruct r as [[] s'| |]; try discriminate. eauto. Qed.
Lemma is_fail_iff k r : is_fail k r = true -> exists e s', r = Fail e s' /\ err_code e = k. Proof. destruct r; try discriminate. cbn. intros H. eexists _, _. split; [reflexivity|lia]. Qed.
Lemma c_ok_iff r : c_ok r = true -> exists x', r = XOk x'. Proof. destruct r; try discriminate. eauto. Qed.
Lemma c_fault_iff r : c_fault r = true -> r = XUB UBMem. Proof. destruct r as [| |[]]; try discriminate. reflexivity. Qed.
Lemma c_err_iff k r : c_err k r = true -> exists x', r = XErr k x'. Proof. destruct r; try discriminate. cbn. intros H. exists x. f_equal. lia. Qed.

(* A sequence all of whose instructions find their operands in the registers, run from a running state held by the machine. *)
Definition shown (base : Z) (l : list instr) (s : ist) (P : res ist unit -> xres -> Prop) : Prop :=
  exists (fp : fpu) (fe : fenv) c k', user_space base /\ one_window base (rts s) /\ running s /\ holds base true true s (machine base s) /\
    emit_all (rts s) no_natives no_locals l = Some c /\ flow_all l (true, true) = Some k' /\ Forall (fun i => Forall is_i32 (operands i)) l /\
    P (exec_all false fe no_natives no_locals l s) (xrun base (rts s) fp no_natives no_junk c 0 (machine base s)).
Lemma show_it base l s ti tc (P : res ist unit -> xres -> Prop) : user_space base -> one_window base (rts s) -> running s ->
  flow_all l (true, true) <> None -> Forall (fun i => Forall is_i32 (operands i)) l ->
  (forall a b, ti a = true -> tc b = true -> P a b) -> both no_fe no_fp base no_locals l s ti tc = true -> shown base l s P.
Proof.
  intros U W R F O H B. destruct (both_split _ _ _ _ _ _ _ _ B) as (c & E & T1 & T2). destruct (flow_all l (true, true)) as [k'|] eqn:FL; [|contradiction].
  exists no_fp, no_fe, c, k'. do 3 (split; [assumption|]). split; [apply machine_holds|]. do 3 (split; [assumption|]). now apply H.
Qed.
Ltac ops := repeat (first [ apply Forall_nil | apply Forall_cons ]); unfold is_i32, two31; lia.
Ltac show ti tc := eapply (show_it _ _ _ ti tc); [ unfold user_space; lia | vm_compute; discriminate
  | apply small_running; [intros z; cbv beta; try destruct (z =? 65523); lia|unfold is_i32, two31; lia ..] | discriminate | ops | | vm_compute; reflexivity ].

(* An array element address: the index is multiplied in 64 bits and the upper half stays, where the check does not look. *)
Lemma idxaddr_case : exists s, shown 65536 [ IDXADDR; LOAD_I ] s (fun i c => (exists s', i = Ok tt s') /\ c = XUB UBMem).
Proof. exists (mkIst (small (fun _ => 0) 1024 65528 65528) 1073741824 256). show is_ok c_fault. intros a b H1 H2. auto using is_ok_iff, c_fault_iff. Qed.
(* A reference parameter: the cell's value is used as an address unchecked. *)
Lemma reference_case : exists s, shown 65536 [ LREF_S Pri 0 ] s (fun i c => (exists s', i = Fail INVALID_ADDRESS s') /\ c = XUB UBMem).
Proof.
  exists (mkIst (small (fun a => if a =? 65523 then 64 else 0) 1024 65520 65520) 0 0). show (is_fail 5) c_fault.
  intros a b H1 H2. split; [|now apply c_fault_iff]. apply is_fail_iff in H1. destruct H1 as (e & s' & -> & E). exists s'. destruct e; try discriminate E. reflexivity.
Qed.
Lemma reference_store_case : exists s, shown 65536 [ SREF_S 0 Pri ] s (fun i c => (exists s', i = Fail INVALID_ADDRESS s') /\ c = XUB UBMem).
Proof.
  exists (mkIst (small (fun a => if a =? 65523 then 64 else 0) 1024 65520 65520) 0 0). show (is_fail 5) c_fault.
  intros a b H1 H2. split; [|now apply c_fault_iff]. apply is_fail_iff in H1. destruct H1 as (e & s' & -> & E). exists s'. destruct e; try discriminate E. reflexivity.
Qed.
(* A block copy: neither address is checked. *)
Lemma movs_case : exists s, shown 65536 [ MOVS 4 ] s (fun i c => (exists e s', i = Fail e s') /\ c = XUB UBMem).
Proof. exists (mkIst (small (fun _ => 0) 1024 65528 65528) 256 1000000). show (is_fail 5) c_fault. intros a b H1 H2. apply is_fail_iff in H1. destruct H1 as (e & s' & -> & _). split; [eauto|now apply c_fault_iff]. Qed.
(* Growing the heap down past zero. *)
Lemma heap_case : exists s, shown 65536 [ HEAP (-2000) ] s (fun i c => (exists s', i = Fail HEAPMIN s') /\ exists x', c = XOk x').
Proof.
  exists (mkIst (small (fun _ => 0) 1024 65528 65528) 0 0). show (is_fail 13) c_ok.
  intros a b H1 H2. split; [|now apply c_ok_iff]. apply is_fail_iff in H1. destruct H1 as (e & s' & -> & E). exists s'. destruct e; try discriminate E. reflexivity.
Qed.
(* The address of the last cell. *)
Lemma last_cell_case : exists s, shown 65536 [ LOAD_I ] s (fun i c => (exists s', i = Fail INVALID_ADDRESS s') /\ exists x', c = XOk x').
Proof.
  exists (mkIst (small (fun _ => 0) 1024 65528 65528) 65532 0). show (is_fail 5) c_ok.
  intros a b H1 H2. split; [|now apply c_ok_iff]. apply is_fail_iff in H1. destruct H1 as (e & s' & -> & E). exists s'. destruct e; try discriminate E. reflexivity.
Qed.
(* A negative limit on an index. *)
Lemma bounds_case : exists s, shown 65536 [ BOUNDS (-1) ] s (fun i c => (exists s', i = Fail ARRAY_BOUNDS s') /\ exists x', c = XOk x').
Proof.
  exists (mkIst (small (fun _ => 0) 1024 65528 65528) (-1) 0). show (is_fail 15) c_ok.
  intros a b H1 H2. split; [|now apply c_ok_iff]. apply is_fail_iff in H1. destruct H1 as (e & s' & -> & E). exists s'. destruct e; try discriminate E. reflexivity.
Qed.
(* Memory afterwards differs at [z]. *)
Definition parts (z : Z) (i : res ist unit) (c : xres) : Prop := exists s' x', i = Ok tt s' /\ c = XOk x' /\ xm x' z <> mem (rts s') z.
Definition parts_at (z v w : Z) (ti : res ist unit) : bool := match ti with Ok _ s' => mem (rts s') z =? v | _ => false end.
Definition c_at (z w : Z) (c : xres) : bool := match c with XOk x' => xm x' z =? w | _ => false end.
Lemma parts_it z v w i c : v <> w -> parts_at z v w i = true -> c_at z w c = true -> parts z i c.
Proof. intros D H1 H2. destruct i as [[] s'| |]; try discriminate. destruct c as [x'| |]; try discriminate. exists s', x'. cbn in *. repeat split; auto. lia. Qed.
(* Storing two bytes stores four. *)
Lemma halfword_case : exists s, shown 65536 [ STRB_I 2 ] s (parts 514).
Proof. exists (mkIst (small (fun _ => 255) 1024 65528 65528) 0 512). show (parts_at 514 255 0) (c_at 514 0). intros a b. now apply parts_it. Qed.
(* A block copy to an overlapping block above repeats the first cells. *)
Lemma overlap_case : exists s, shown 65536 [ MOVS 12 ] s (parts 520).
Proof. exists (mkIst (small (fun a => a mod 256) 1024 65528 65528) 512 516). show (parts_at 520 4 0) (c_at 520 0). intros a b. now apply parts_it. Qed.
(* Room was checked on entry; the heap has grown since, and pushes run into it. *)
Definition pushes20 : list instr := [ PUSH_C [1; 2; 3; 4; 5]; PUSH_C [1; 2; 3; 4; 5]; PUSH_C [1; 2; 3; 4; 5]; PUSH_C [1; 2; 3; 4; 5] ].
Definition heap_now (i : res ist unit) : bool := is_fail 8 i.
Definition crossed (c : xres) : bool := match c with XOk x' => xr x' R14 - xr x' R15 <? xc x' CHp | _ => false end.
Lemma crossing_case : exists s, hp (rts s) + 64 <= sp (rts s) - 80 /\
  shown 65536 (HEAP 300 :: pushes20) s (fun i c => (exists s', i = Fail STACKLOW s') /\ exists x', c = XOk x' /\ xr x' R14 - xr x' R15 < xc x' CHp).
Proof.
  exists (mkIst (small (fun _ => 0) 1024 1392 1392) 0 0). split; [cbn; lia|]. show (is_fail 8) crossed. intros a b H1 H2. split.
  - apply is_fail_iff in H1. destruct H1 as (e & s' & -> & E). exists s'. destruct e; try discriminate E. reflexivity.
  - destruct b as [x'| |]; try discriminate. exists x'. split; [reflexivity|]. cbn in H2. lia.
Qed.
(* A block across a 4 GiB boundary: room is refused though there is plenty. *)
Lemma window_case : exists base s fp fe c, user_space base /\ running s /\ holds base true true s (machine base s) /\
  emit (rts s) no_natives no_locals (HEAP 40) = Some c /\ hp (rts s) + 60000 < sp (rts s) /\
  (exists s', exec false fe no_natives no_locals (HEAP 40) s = Ok tt s') /\
  exists x', xrun base (rts s) fp no_natives no_junk c 0 (machine base s) = XErr (err_code HEAPLOW) x'.
Proof.
  exists 4294934528, (mkIst (small (fun _ => 0) 1024 65528 65528) 0 0), no_fp, no_fe. eexists.
  split; [unfold user_space; lia|]. split; [apply small_running; [intros; lia|unfold is_i32, two31; lia ..]|]. split; [apply machine_holds|].
  split; [reflexivity|]. split; [cbn; lia|]. split; [apply is_ok_iff; vm_compute; reflexivity|]. apply c_err_iff. vm_compute. reflexivity.
Qed.
(* A float tested for truth: one is not 1. *)
Lemma test_case fe : f1 fe 173 1065353216 = 1 -> exists s c fp, running s /\ holds 65536 true true s (machine 65536 s) /\
  emit (rts s) no_natives no_locals (F32_1 173) = Some c /\
  (exists s', exec false fe no_natives no_locals (F32_1 173) s = Ok tt s' /\ pri s' = 1) /\
  exists x', xrun 65536 (rts s) fp no_natives no_junk c 0 (machine 65536 s) = XOk x' /\ xr x' RAX = 1065353217.
Proof.
  intros F. exists (mkIst (small (fun _ => 0) 1024 65528 65528) 1065353216 0). eexists.
  exists (mkFpu (fun _ _ _ => 0) (fun a b => Some (Z.compare a b)) (fun _ => 0) (fun _ => 0) (fun _ => 0) (fun _ => 0) (fun _ => 0) (fun _ _ => 0)).
  split; [apply small_running; [intros; lia|unfold is_i32, two31; lia ..]|]. split; [apply machine_holds|]. split; [reflexivity|].
  split; [eexists; split; [reflexivity|exact F]|]. eexists. split; [reflexivity|]. vm_compute. reflexivity.
Qed.

(* A sequence on which they agree: ADD.C 7; STOR 512; CONST.alt 3; ADD; PUSH; LOAD.pri 512; POP.alt; CMP LESS. *)
Definition sums : list instr := [ ADD_C 7; STOR 512 Pri; CONST Alt 3; ADD; PUSHR Pri; LOAD Pri 512; POP Alt; CMP Sless ].
Definition sums_at : ist := mkIst (small (fun _ => 0) 1024 65528 65528) 5 0.
Definition ends (v w : Z) (r : res ist unit) : bool := match r with Ok _ s' => (pri s' =? v) && (load32 (mem (rts s')) 512 =? w) | _ => false end.
Lemma sums_case : exists s' c k', running sums_at /\ same_plugin (rts sums_at) (rts sums_at) /\ holds 65536 true true sums_at (machine 65536 sums_at) /\
  emit_all (rts sums_at) no_natives no_locals sums = Some c /\ flow_all sums (true, true) = Some k' /\
  all_agree 65536 no_fe no_natives no_locals sums sums_at /\ exec_all false no_fe no_natives no_locals sums sums_at = Ok tt s' /\
  pri s' = 1 /\ load32 (mem (rts s')) 512 = 12.
Proof.
  assert (H : ends 1 12 (exec_all false no_fe no_natives no_locals sums sums_at) = true) by (vm_compute; reflexivity).
  destruct (exec_all false no_fe no_natives no_locals sums sums_at) as [[] s'| |] eqn:E; try discriminate. cbn [ends] in H. exists s'. eexists. eexists.
  split; [apply small_running; [intros; lia|unfold is_i32, two31; lia ..]|]. split; [constructor; reflexivity|]. split; [apply machine_holds|]. split; [reflexivity|]. split; [reflexivity|]. split.
  - unfold sums. cbn [all_agree]. repeat (split; [ops|]; split; [cbn [agrees]; try exact Logic.I; split; discriminate|]; split; [exact Logic.I|]; intros ? _). exact Logic.I.
  - split; [reflexivity|]. lia.
Qed.

(* An index out of bounds. *)
Definition stops_at : ist := mkIst (small (fun _ => 0) 1024 65528 65528) 5 0.
Lemma stops_case : running stops_at /\ holds 65536 true true stops_at (machine 65536 stops_at) /\
  (exists c, emit (rts stops_at) no_natives no_locals (BOUNDS 4) = Some c) /\ checks 65536 no_natives stops_at (BOUNDS 4) /\
  (exists s', exec false no_fe no_natives no_locals (BOUNDS 4) stops_at = Fail ARRAY_BOUNDS s').
Proof.
  split; [apply small_running; [intros; lia|unfold is_i32, two31; lia ..]|]. split; [apply machine_holds|]. split; [eexists; reflexivity|].
  split; [cbn [checks]; lia|]. eexists. reflexivity.
Qed.
