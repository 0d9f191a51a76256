(* C46, C01, C02: straight-line code compiled for x64 and the interpreter. *)
From Verif Require Import Base Rt_Model Array_Model Interp_Model Rt_Spec Mem_Spec X64_Model X64_Spec X64_Proofs X64_Stop X64_Cases.

(* C46.  A sequence of instructions that the interpreter completes, its compiled form completes too, leaving the same memory,
   pointers and live registers.
   Missing: the conditions [agrees]/[operand_ok] on the state at each instruction, each shown needed by a refutation below; the
   native code's own stack around host calls; the encoding of instructions as bytes. *)
Theorem C46_compiled_sequence_partial base env fp nat_ junk fe mi :
  user_space base -> natives_ok nat_ -> floats_agree fe fp -> float_cells fe -> slot_table_ok mi ->
  forall l s s' x kp ka c k',
  same_plugin env (rts s) -> running s -> holds base kp ka s x ->
  emit_all env nat_ mi l = Some c -> flow_all l (kp, ka) = Some k' -> all_agree base fe nat_ mi l s ->
  exec_all false fe nat_ mi l s = Ok tt s' ->
  running s' /\ exists x', xrun base env fp nat_ junk c 0 x = XOk x' /\ holds base (fst k') (snd k') s' x'.
Proof. exact (fun US NAT FA FC ST => many_steps base env fp nat_ junk fe US NAT FA FC mi ST). Qed.
Print Assumptions C46_compiled_sequence_partial.

Example C46_sequence_example : exists s' c k', running sums_at /\ same_plugin (rts sums_at) (rts sums_at) /\
  holds 65536 true true sums_at (machine 65536 sums_at) /\
  emit_all (rts sums_at) no_natives no_locals sums = Some c /\ flow_all sums (true, true) = Some k' /\
  all_agree 65536 no_fe no_natives no_locals sums sums_at /\ exec_all false no_fe no_natives no_locals sums sums_at = Ok tt s' /\
  pri s' = 1 /\ load32 (mem (rts s')) 512 = 12.
Proof. exact sums_case. Qed.

(* C46.  An instruction that makes the same checks in both engines: where the interpreter stops with an error, compiled code
   stops with the matching error code and the same memory. *)
Theorem C46_compiled_stops_partial base env fp nat_ junk fe mi s s' x kp ka i c k' e :
  user_space base -> natives_ok nat_ -> same_plugin env (rts s) -> running s -> holds base kp ka s x ->
  emit env nat_ mi i = Some c -> flow i (kp, ka) = Some k' -> Forall is_i32 (operands i) -> checks base nat_ s i ->
  exec false fe nat_ mi i s = Fail e s' ->
  exists x', xrun base env fp nat_ junk c 0 x = XErr (stop_code i s e) x' /\ forall a, xm x' a = mem (rts s') a.
Proof. exact (stop_step base env fp nat_ junk fe mi s s' x kp ka i c k' e). Qed.
Print Assumptions C46_compiled_stops_partial.

Example C46_stops_example : running stops_at /\ holds 65536 true true stops_at (machine 65536 stops_at) /\
  (exists c, emit (rts stops_at) no_natives no_locals (BOUNDS 4) = Some c) /\ checks 65536 no_natives stops_at (BOUNDS 4) /\
  (exists s', exec false no_fe no_natives no_locals (BOUNDS 4) stops_at = Fail ARRAY_BOUNDS s').
Proof. exact stops_case. Qed.

(* C01.  Compiled loads and stores through a register touch at most the cell addressed, inside the plugin's memory and not
   between heap and stack; any other address stops with an error and changes nothing.
   Missing: reference parameters and block copies, for which this is false: see the refutations. *)
Theorem C01_compiled_access_partial base env fp nat_ junk mi s x kp ka i c k' a :
  user_space base -> natives_ok nat_ -> same_plugin env (rts s) -> running s -> holds base kp ka s x ->
  emit env nat_ mi i = Some c -> flow i (kp, ka) = Some k' -> accesses i s = Some a ->
  (open_cell (rts s) a -> exists x', xrun base env fp nat_ junk c 0 x = XOk x' /\ only_cell a (xm x) (xm x')) /\
  (~ open_cell (rts s) a -> exists x', xrun base env fp nat_ junk c 0 x = XErr SP_ERROR_MEMACCESS x' /\ xm x' = xm x).
Proof. exact (access_confined base env fp nat_ junk mi s x kp ka i c k' a). Qed.
Print Assumptions C01_compiled_access_partial.

(* C01.  A reference parameter: compiled code uses the cell's value as an address unchecked, reading or writing outside the
   plugin's memory where the interpreter reports an error. *)
Theorem C01_compiled_reference_refuted :
  (exists s, shown 65536 [ LREF_S Pri 0 ] s (fun i c => (exists s', i = Fail INVALID_ADDRESS s') /\ c = XUB UBMem)) /\
  (exists s, shown 65536 [ SREF_S 0 Pri ] s (fun i c => (exists s', i = Fail INVALID_ADDRESS s') /\ c = XUB UBMem)).
Proof. exact (conj reference_case reference_store_case). Qed.
Print Assumptions C01_compiled_reference_refuted.

(* C01.  A block copy: neither address is checked. *)
Theorem C01_compiled_copy_refuted :
  exists s, shown 65536 [ MOVS 4 ] s (fun i c => (exists e s', i = Fail e s') /\ c = XUB UBMem).
Proof. exact movs_case. Qed.
Print Assumptions C01_compiled_copy_refuted.

(* C01, C46.  An index of 2^30: the element address is computed in 64 bits, and the check looks at the lower half only. *)
Theorem C01_compiled_index_refuted :
  exists s, shown 65536 [ IDXADDR; LOAD_I ] s (fun i c => (exists s', i = Ok tt s') /\ c = XUB UBMem).
Proof. exact idxaddr_case. Qed.
Print Assumptions C01_compiled_index_refuted.

(* C02.  Room for a method's stack is checked on entry only; allocating heap afterwards and pushing crosses the two. *)
Theorem C02_compiled_crossing_refuted : exists s, hp (rts s) + 64 <= sp (rts s) - 80 /\
  shown 65536 (HEAP 300 :: pushes20) s
    (fun i c => (exists s', i = Fail STACKLOW s') /\ exists x', c = XOk x' /\ xr x' R14 - xr x' R15 < xc x' CHp).
Proof. exact crossing_case. Qed.
Print Assumptions C02_compiled_crossing_refuted.

(* C02.  Shrinking the heap below zero passes the compiled check. *)
Theorem C02_compiled_heap_refuted :
  exists s, shown 65536 [ HEAP (-2000) ] s (fun i c => (exists s', i = Fail HEAPMIN s') /\ exists x', c = XOk x').
Proof. exact heap_case. Qed.
Print Assumptions C02_compiled_heap_refuted.

(* C46.  Other instructions on which the engines differ: the last cell of memory as an address; a negative array bound; a
   two-byte store; an overlapping block copy; a memory block across a 4 GiB boundary; a float tested for truth. *)
Theorem C46_last_cell_refuted :
  exists s, shown 65536 [ LOAD_I ] s (fun i c => (exists s', i = Fail INVALID_ADDRESS s') /\ exists x', c = XOk x').
Proof. exact last_cell_case. Qed.
Print Assumptions C46_last_cell_refuted.
Theorem C46_negative_bound_refuted :
  exists s, shown 65536 [ BOUNDS (-1) ] s (fun i c => (exists s', i = Fail ARRAY_BOUNDS s') /\ exists x', c = XOk x').
Proof. exact bounds_case. Qed.
Print Assumptions C46_negative_bound_refuted.
Theorem C46_two_byte_store_refuted : exists s, shown 65536 [ STRB_I 2 ] s (parts 514).
Proof. exact halfword_case. Qed.
Print Assumptions C46_two_byte_store_refuted.
Theorem C46_overlapping_copy_refuted : exists s, shown 65536 [ MOVS 12 ] s (parts 520).
Proof. exact overlap_case. Qed.
Print Assumptions C46_overlapping_copy_refuted.
Theorem C46_window_refuted : exists base s fp fe c, user_space base /\ running s /\ holds base true true s (machine base s) /\
  emit (rts s) no_natives no_locals (HEAP 40) = Some c /\ hp (rts s) + 60000 < sp (rts s) /\
  (exists s', exec false fe no_natives no_locals (HEAP 40) s = Ok tt s') /\
  exists x', xrun base (rts s) fp no_natives no_junk c 0 (machine base s) = XErr (err_code HEAPLOW) x'.
Proof. exact window_case. Qed.
Print Assumptions C46_window_refuted.
Theorem C46_float_test_refuted fe : f1 fe 173 1065353216 = 1 ->
  exists s c fp, running s /\ holds 65536 true true s (machine 65536 s) /\
  emit (rts s) no_natives no_locals (F32_1 173) = Some c /\
  (exists s', exec false fe no_natives no_locals (F32_1 173) s = Ok tt s' /\ pri s' = 1) /\
  exists x', xrun 65536 (rts s) fp no_natives no_junk c 0 (machine 65536 s) = XOk x' /\ xr x' RAX = 1065353217.
Proof. exact (test_case fe). Qed.
Print Assumptions C46_float_test_refuted.
