(* C01: script-visible addresses are confined to the plugin's memory. *)
From Verif Require Import Base Rt_Model Interp_Model Rt_Spec Hist_Proofs Array_Exec Mem_Spec Mem_Proofs Exec_Safe.

(* A single access whose addresses are all legal is performed: memory, PRI and ALT afterwards are
   exactly what the instruction says, and the bytes it touches are in the plugin's block. *)
Theorem C01_legal_access : forall fe natives mi st i acc,
  layout (rts st) -> operands_in_range st (snd acc) -> access_of mi st i = Some acc -> legal (rts st) acc ->
  exists m', exec false fe natives mi i st
      = Ok tt (mkIst (set_mem m' (rts st)) (pri_after (snd acc) st) (alt_after (snd acc) st)) /\
    forall x, m' x = mem_after (snd acc) (mem (rts st)) x.
Proof. exact access_done. Qed.
Print Assumptions C01_legal_access.

Theorem C01_legal_access_inside : forall mi s acc st i,
  layout s -> rts st = s -> operands_in_range st (snd acc) -> access_of mi st i = Some acc -> legal s acc ->
  Forall (fun r => inside s (fst r) (snd r)) (touched (snd acc)).
Proof. exact touched_inside. Qed.
Print Assumptions C01_legal_access_inside.

(* Any other access (negative, past the stack base, or in the unused gap) is an error that changes
   nothing in the plugin's memory. *)
Theorem C01_illegal_access : forall fe natives mi st i acc,
  layout (rts st) -> operands_in_range st (snd acc) -> access_of mi st i = Some acc -> ~ legal (rts st) acc ->
  exists st', exec false fe natives mi i st = Fail INVALID_ADDRESS st' /\ rts st' = rts st.
Proof. exact access_refused. Qed.
Print Assumptions C01_illegal_access.

(* Every instruction, including array, 64-bit and native-call ones: it never reads or writes outside
   the block, and leaves the plugin's pointers in the block unless it fails.  [operand_ok] lists what
   the code takes on trust: amounts that do not wrap, aligned initialisers, addressable 64-bit slots
   and bound native indices.  Missing from the English property: those operands (refuted below). *)
Theorem C01_instruction_confined_partial : forall fe natives mi, good_natives natives -> forall i st,
  in_bounds (rts st) -> is_i32 (pri st) -> is_i32 (alt st) -> operand_ok natives mi st i ->
  match exec false fe natives mi i st with
  | Ok _ st' => confined (rts st) (rts st') /\ in_bounds (rts st')
  | Fail _ st' => confined (rts st) (rts st')
  | UB u => u <> UBMem
  end.
Proof. exact exec_safe. Qed.
Print Assumptions C01_instruction_confined_partial.

Example C01_hypotheses : layout (rts demo_store) /\ pointers_ok (rts demo_store) /\
  (exists acc, access_of mi0 demo_store STOR_I = Some acc /\ operands_in_range demo_store (snd acc) /\
     legal (rts demo_store) acc) /\
  (exists acc, access_of mi0 demo_store (LOAD Pri 100) = Some acc /\ operands_in_range demo_store (snd acc) /\
     in_gap (rts demo_store) 100 /\ ~ legal (rts demo_store) acc) /\
  (exists acc, access_of mi0 (mkIst (rts demo_store) 0 16) (MOVS 8) = Some acc /\
     operands_in_range (mkIst (rts demo_store) 0 16) (snd acc) /\ legal (rts demo_store) acc).
Proof. exact access_example. Qed.

(* Only the ends of a block are checked, so one may cover the unused gap. *)
Theorem C01_block_over_gap_refuted : exists s s' n,
  perform_all [OHeap 8; OPush 1; OPush 2] demo_rt = Ok tt s /\
  pointers_ok s /\ 0 <= n <= mem_size s /\ in_gap s (16 + n / 2) /\
  exec false fe0 (fun _ => None) mi0 (FILL n) (mkIst s 7 16) = Ok tt s' /\
  load32 (mem (rts s')) (16 + n / 2) <> load32 (mem s) (16 + n / 2).
Proof. exact block_spans_gap. Qed.
Print Assumptions C01_block_over_gap_refuted.

(* Zeroing a 64-bit slot checks the halves one at a time: a refused one has already been half written. *)
Theorem C01_refusal_changes_nothing_refuted : exists s s' o e,
  fresh demo_rt /\ s = run_ops [OPush 1234] demo_rt /\ pointers_ok s /\
  exec false fe0 (fun _ => None) mi0 (ZERO_S_I64 o) (mkIst s 0 0) = Fail e s' /\
  load32 (mem (rts s')) (sp s) <> load32 (mem s) (sp s).
Proof. exact zero64_half. Qed.
Print Assumptions C01_refusal_changes_nothing_refuted.

(* A 64-bit store to an unaddressable frame slot dereferences a null pointer. *)
Theorem C01_int64_slot_refuted : exists s o, fresh s /\
  exec false fe0 (fun _ => None) mi0 (CVT_I64 o) (mkIst s 0 0) = UB UBMem.
Proof. exact int64_slot_null. Qed.
Print Assumptions C01_int64_slot_refuted.
