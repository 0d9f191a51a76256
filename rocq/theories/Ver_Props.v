(* C10, C11, C25, C41, C42: what acceptance by the whole bytecode verifier means. *)
From Verif Require Import Base Rtti_Model Rtti_Spec Rt_Model Array_Model Interp_Model Cfg_Model Cfg_Spec Cfg_Proofs Dom_Model Ver_Model Ver_Spec Ver_Proofs Ver_Finish Ver_Cases Ver_Ops.

(* In an accepted method, every way of arriving at an instruction arrives with the same number of cells
   pushed; and the instruction's own pushes and pops never reach into the caller's frame nor exceed the
   recorded maximum.  Missing: methods with a negative case count (refuted below), natives replaced by float
   instructions (refuted below), the local slots of typed code in the maximum (refuted below), and the
   connection of [moves] with the interpreter's stack pointer, which calls and natives make conditional on
   what they do to it. *)
Theorem C10_depth_partial strict rounds fuel env o v : code_ok (v_code env) -> 0 <= o -> counts_ok (v_code env) (o / 4) ->
  verify strict rounds fuel env o = CGood (Some v) ->
  forall prev pc d, at_depth (v_code env) (o / 4) prev pc d ->
    (forall prev' d', at_depth (v_code env) (o / 4) prev' pc d' -> d' = d) /\
    exists i ms, Interp_Model.decode (v_code env) pc = Some i /\ moves (v_code env) prev i = Some ms /\ follows d ms (vi_max v).
Proof. exact (verify_depth strict rounds fuel env o v). Qed.
Print Assumptions C10_depth_partial.

Example C10_example : code_ok (v_code (plain pushes)) /\ counts_ok (v_code (plain pushes)) (0 / 4) /\
  (exists v, verify true 50 50 (plain pushes) 0 = CGood (Some v) /\ vi_max v = 8) /\ at_depth pushes 0 (Some 5) 7 2.
Proof. exact pushes_case. Qed.

(* With a negative case count, an accepted method can pop its caller's frame (assertions compiled out). *)
Theorem C10_negative_count_refuted : exists env v pc d prev, code_ok (v_code env) /\ verify false 50 50 env 0 = CGood (Some v) /\
  at_depth (v_code env) 0 prev pc d /\ d < 0.
Proof. exact steps_back_case. Qed.
Print Assumptions C10_negative_count_refuted.

(* The recorded maximum does not cover the local slots of typed code. *)
Theorem C10_locals_not_counted_refuted : exists env tys v pc d prev, code_ok (v_code env) /\ counts_ok (v_code env) (0 / 4) /\
  v_typed env = true /\ compiled_slots env 0 tys /\
  verify true 50 50 env 0 = CGood (Some v) /\ at_depth (v_code env) 0 prev pc d /\
  vi_max v < fold_right Z.add 0 (map slot_bytes tys) + 4 * d.
Proof. exact two_locals_case. Qed.
Print Assumptions C10_locals_not_counted_refuted.

(* A call without arguments to a native replaced by a binary float instruction is accepted with nothing pushed, and
   pops two cells of the caller's frame. *)
Theorem C10_replaced_native_refuted : exists env v, code_ok (v_code env) /\ counts_ok (v_code env) (0 / 4) /\
  verify true 50 50 env 0 = CGood (Some v) /\ at_depth (v_code env) 0 None 1 0 /\
  Interp_Model.decode (v_code env) 1 = Some (SYSREQ_N 0 0) /\
  forall strict fe natives mi n f s, natives 0 = Some (mkNative (Some f) (Some (FBIN n))) ->
    0 <= sp (rts s) -> sp (rts s) + 8 <= stp (rts s) -> stp (rts s) <= mem_size (rts s) < two31 ->
    exists s', exec strict fe natives mi (SYSREQ_N 0 0) s = Ok tt s' /\ sp (rts s') = sp (rts s) + 8 /\ frm (rts s') = frm (rts s).
Proof. exact no_args_case. Qed.
Print Assumptions C10_replaced_native_refuted.

(* The whole of verification finishes if no case table has a negative count. *)
Theorem C11_verify_partial strict env o : code_ok (v_code env) -> 0 <= o -> counts_ok (v_code env) (o / 4) ->
  exists n, forall rounds fuel, (n <= rounds)%nat -> (n <= fuel)%nat -> verify strict rounds fuel env o <> CLoop.
Proof. exact (verify_stops strict env o). Qed.
Print Assumptions C11_verify_partial.

(* It touches only what it was given, if moreover the code uses heap scopes, ... *)
Theorem C41_verify_reads_partial strict env o : code_ok (v_code env) -> 0 <= o -> counts_ok (v_code env) (o / 4) ->
  v_scopes env = true ->
  exists n, forall rounds fuel, (n <= rounds)%nat -> (n <= fuel)%nat -> verify strict rounds fuel env o <> CUndef UBMem.
Proof. exact (verify_reads strict env o). Qed.
Print Assumptions C41_verify_reads_partial.

Example C41_verify_example : code_ok (v_code two_locals) /\ counts_ok (v_code two_locals) (0 / 4) /\ v_scopes two_locals = true /\
  exists v, verify true 50 50 two_locals 0 = CGood (Some v) /\ vi_max v = 40.
Proof. exact two_locals_good. Qed.

(* ... but without heap scopes, merging the heap records of two paths reads outside the vector that holds
   them. *)
Theorem C41_merge_refuted : exists env, code_ok (v_code env) /\ counts_ok (v_code env) (0 / 4) /\
  forall strict, verify strict 50 50 env 0 = CUndef UBMem.
Proof. exact uneven_trackers_case. Qed.
Print Assumptions C41_merge_refuted.

(* The whole verifier accepts the loop that never consults the watchdog (C25_switch_loop_refuted). *)
Theorem C25_switch_loop_verified_refuted : exists code v, verify true 50 50 (plain code) 0 = CGood (Some v) /\ code_ok code /\
  forall strict fe p t c, p_code p = code -> a_pc (c_cur c) = 1 ->
  forall k, exists c', silent strict fe p t k c c' /\ a_pc (c_cur c') = 1 /\ depth c' = depth c.
Proof. exact switch_loop_verified_exists. Qed.
Print Assumptions C25_switch_loop_verified_refuted.

(* The engine runs a method only after verification accepted it, if the code is untyped or the method's slot table
   is one the compiler writes; and then the frame has the slots of that table. *)
Theorem C42_verified_partial strict rounds fuel env o tys mi : v_typed env = false \/ compiled_slots env o tys ->
  validate_method strict rounds fuel env o = CGood mi ->
  exists v, verify strict rounds fuel env o = CGood (Some v) /\
    (v_typed env = true -> local_offsets mi = local_table (map slot_bytes tys) 0).
Proof. exact (validated_verified strict rounds fuel env o tys mi). Qed.
Print Assumptions C42_verified_partial.

Example C42_example : v_typed two_locals = true /\ compiled_slots two_locals 0 [int_slot; int_slot] /\
  exists mi, validate_method true 50 50 two_locals 0 = CGood mi /\ local_offsets mi = [-4; -8].
Proof. exact two_locals_valid. Qed.

(* A slot table that passes the image's own checks but that the verifier cannot follow: verification stops
   without an error having been reported, and the method is run although it would be rejected. *)
Theorem C42_bad_table_refuted : exists env t r, v_rtti env = Some (t, [r]) /\ v_typed env = true /\
  (exists o', validateLocalSlots t (m_locals r) = Got true o') /\ (exists o', validateFunctionOffset t (m_sig r) = Got true o') /\
  (forall strict rounds fuel, validate_method strict rounds fuel env 0 = CGood (mkMeth true [])) /\
  (forall strict rounds fuel v, verify strict rounds fuel env 0 <> CGood (Some v)) /\
  verify true 50 50 (mkVenv (v_code env) false true true 65536 1024 4 None) 0 = CBad INSTRUCTION_PARAM.
Proof. exact unverified_case. Qed.
Print Assumptions C42_bad_table_refuted.

(* C43.  Every slot, global, native and function named by a reachable instruction of an accepted method exists.
   Missing: methods with a negative case count, and the two cases below. *)
Theorem C43_operands_partial strict rounds fuel env o v : code_ok (v_code env) -> 0 <= o -> counts_ok (v_code env) (o / 4) ->
  verify strict rounds fuel env o = CGood (Some v) ->
  exists args, (v_typed env = true -> signature_args env o args) /\
    forall prev pc d, at_depth (v_code env) (o / 4) prev pc d ->
    exists i, Interp_Model.decode (v_code env) pc = Some i /\ operands_ok env args (vi_sizes v) d i.
Proof. exact (verify_operands strict rounds fuel env o v). Qed.
Print Assumptions C43_operands_partial.

Example C43_untyped_example : code_ok names_slot /\ counts_ok names_slot (0 / 4) /\
  (exists v, verify true 50 50 (plain names_slot) 0 = CGood (Some v) /\ vi_max v = 4) /\
  at_depth names_slot 0 (Some 1) 3 1 /\ Interp_Model.decode names_slot 3 = Some (STOR_S (-4) Pri).
Proof. exact names_slot_case. Qed.

Example C43_typed_example : code_ok (v_code names_local) /\ counts_ok (v_code names_local) (0 / 4) /\
  (exists v, verify true 50 50 names_local 0 = CGood (Some v) /\ vi_max v = 32) /\
  at_depth (v_code names_local) 0 None 1 0 /\ Interp_Model.decode (v_code names_local) 1 = Some (ZERO_S 1).
Proof. exact names_local_case. Qed.

(* A global variable need not lie inside the data: only its first byte is checked. *)
Theorem C43_straddling_global_refuted : exists env v pc d prev a, code_ok (v_code env) /\ counts_ok (v_code env) (0 / 4) /\
  verify true 50 50 env 0 = CGood (Some v) /\ at_depth (v_code env) 0 prev pc d /\
  Interp_Model.decode (v_code env) pc = Some (LOAD Pri a) /\ v_dat env < a + 4.
Proof. exact straddles_case. Qed.
Print Assumptions C43_straddling_global_refuted.

(* Untyped code may name an argument as far above its frame as the whole memory is large. *)
Theorem C43_untyped_argument_refuted : exists env v pc d prev o, code_ok (v_code env) /\ counts_ok (v_code env) (0 / 4) /\
  v_dat env = 0 /\ verify true 50 50 env 0 = CGood (Some v) /\ at_depth (v_code env) 0 prev pc d /\
  Interp_Model.decode (v_code env) pc = Some (STOR_S o Pri) /\ o + 4 = v_mem env.
Proof. exact above_case. Qed.
Print Assumptions C43_untyped_argument_refuted.
