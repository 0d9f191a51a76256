(* C46, C25: whole methods compiled for x64. *)
From Verif Require Import Base Rtti_Model Rt_Model Array_Model Interp_Model Rt_Spec Mem_Spec Cfg_Model Cfg_Spec Dom_Model Dom_Spec X64_Model X64_Spec Jit_Model Jit_Spec.
From Verif Require Ver_Model Ver_Cases.
From Verif Require Import X64_Cases Jit_Proofs Jit_Call Jit_Poll Jit_Whole Jit_Cases.

(* C46.  Whatever the interpreter does within one activation of a compiled method, taking jumps, branches and switches, the
   compiled method does, from any matching place to the matching place.
   Missing: as for sequences (X64_Props.v); methods in which two cases of switches whose values are in sequence lead to the same
   place ([unshared]), for which it is false: C46_shared_case_refuted; calls are related separately below, since the two engines lay out frames
   differently (C46_call_heap_refuted). *)
Theorem C46_compiled_method_partial base env fp natives junk fe p t m mi K strict rounds fuel pr g an :
  user_space base -> natives_ok natives -> floats_agree fe fp -> float_cells fe -> slot_table_ok mi ->
  p_natives p = natives -> code_ok (p_code p) -> counts_ok (p_code p) m ->
  build strict rounds fuel (p_code p) m = CGood (pr, g, an) ->
  registers_ok (p_code p) m K -> supported env natives (p_code p) mi m -> unshared (p_code p) m ->
  forall c c', within base fe p t c c' -> forall j, matches base env (p_code p) m mi pr g K c j ->
  exists j', jruns base env fp natives junk (p_code p) mi g (an_rpo an) j j' /\ matches base env (p_code p) m mi pr g K c' j'.
Proof. exact (whole_method base env fp natives junk fe p t m mi K strict rounds fuel pr g an). Qed.
Print Assumptions C46_compiled_method_partial.

(* The hypotheses hold of a counting loop, which both engines run round three times. *)
Example C46_method_example :
  natives_ok no_natives /\ floats_agree plain_fe no_fp /\ float_cells plain_fe /\ code_ok countdown /\ counts_ok countdown 0 /\
  registers_ok countdown 0 cd_K /\ supported (c_rt cd_start) no_natives countdown no_locals 0 /\ unshared countdown 0 /\
  (exists c', within 65536 plain_fe cd_prog never cd_start c' /\ a_pc (c_cur c') = 9 /\ a_pri (c_cur c') = 0) /\
  exists pr g a, build true 50 50 countdown 0 = CGood (pr, g, a) /\
    matches 65536 (c_rt cd_start) countdown 0 no_locals pr g cd_K cd_start (mkJat 0 1 (machine 65536 (state_of cd_start))).
Proof. exact cd_all. Qed.
(* And of a switch with two cases in sequence, looked up in a table. *)
Example C46_switch_example : code_ok two_cases /\ counts_ok two_cases 0 /\ registers_ok two_cases 0 cd_K /\
  supported (c_rt (sw_start two_cases)) no_natives two_cases no_locals 0 /\ unshared two_cases 0 /\
  (exists c', within 65536 plain_fe (sw_prog two_cases) never (sw_start two_cases) c' /\ a_pc (c_cur c') = 6) /\
  exists pr g a, build true 50 50 two_cases 0 = CGood (pr, g, a) /\
    matches 65536 (c_rt (sw_start two_cases)) two_cases 0 no_locals pr g cd_K (sw_start two_cases) (mkJat 0 3 (machine 65536 (state_of (sw_start two_cases)))).
Proof. exact two_cases_all. Qed.

(* C46.  A switch on 1, 2 and 3 where 1 and 2 share a body (case 1, 2:): for 2 the interpreter goes to the body, and the
   compiled method jumps to its own start, entering itself again.  The address label of a block is made for one use. *)
Theorem C46_shared_case_refuted : exists code m K,
  (exists v, Ver_Model.verify true 60 200 (Ver_Cases.plain code) (4 * m) = CGood (Some v)) /\
  code_ok code /\ counts_ok code m /\ registers_ok code m K /\ supported (c_rt (sw_start code)) no_natives code no_locals m /\
  exists pr g a, build true 50 50 code m = CGood (pr, g, a) /\
  exists j, matches 65536 (c_rt (sw_start code)) code m no_locals pr g K (sw_start code) j /\
    (exists c', within 65536 plain_fe (sw_prog code) never (sw_start code) c' /\ a_pc (c_cur c') = 5) /\
    forall fp junk, exists x, jstep 65536 (c_rt (sw_start code)) fp no_natives junk code no_locals g (an_rpo a) j = JStart x.
Proof. exact shared_case. Qed.
Print Assumptions C46_shared_case_refuted.

(* C46.  Entering a compiled method with room for the most it pushes: the frame is laid out and the caller's pointers saved. *)
Theorem C46_compiled_entry_partial base env fp natives junk mi max_stack r p a x kp ka :
  user_space base -> same_plugin env r -> running (mkIst r p a) -> holds base kp ka (mkIst r p a) x ->
  8 <= sp r -> 0 <= max_stack -> - max_stack <= StackSizeForLocalSlots mi <= 0 -> room max_stack r ->
  exists x', xrun base env fp natives junk (emitPrologue mi max_stack) 0 x = XOk x' /\
    holds base (kp && (max_stack =? 0)) ka (mkIst (on_entry (StackSizeForLocalSlots mi) r) p a) x'.
Proof. exact (fun US => enters base env fp natives junk US mi max_stack r p a x kp ka). Qed.
Print Assumptions C46_compiled_entry_partial.

(* C46, C02.  Without room, the call is refused with the stack error. *)
Theorem C46_compiled_entry_refusal_partial base env fp natives junk mi max_stack r p a x kp ka :
  user_space base -> same_plugin env r -> running (mkIst r p a) -> holds base kp ka (mkIst r p a) x ->
  8 <= sp r -> 0 <= max_stack <= base + sp r - 8 -> ~ room max_stack r ->
  exists x', xrun base env fp natives junk (emitPrologue mi max_stack) 0 x = XErr (err_code STACKLOW) x'.
Proof. exact (fun US => enter_refused base env fp natives junk US mi max_stack r p a x kp ka). Qed.
Print Assumptions C46_compiled_entry_refusal_partial.

(* C46.  A method that entered, and whose frame header is intact, returns to the caller's frame, heap and scope, its arguments
   dropped, with its result. *)
Theorem C46_compiled_return_partial base env fp natives junk mi r p a n r2 p2 a2 x2 kp2 ka2 :
  user_space base -> same_plugin env r -> running (mkIst r p a) -> 8 <= sp r -> sp r + 4 <= mem_size r ->
  0 <= load32 (mem r) (sp r) ->
  let r1 := on_entry (StackSizeForLocalSlots mi) r in
  same_plugin r1 r2 -> frm r2 = frm r1 -> untouched (frm r1) (mem r1) (mem r2) ->
  holds base kp2 ka2 (mkIst r2 p2 a2) x2 ->
  scopes_in (mem r2) (mem_size r2) n (hp_scope r2) -> scope_out (mem r2) n (hp_scope r2) = hp_scope r ->
  exists x3, xrun base env fp natives junk (emitRETN n) 0 x2 = XOk x3 /\
    holds base kp2 (ka2 && Nat.eqb n 0)
      (mkIst (set_mem (mem r2) (set_sp (sp r + 4 + 4 * load32 (mem r) (sp r)) r)) p2 a2) x3.
Proof. exact (call_and_return base env fp natives junk mi r p a n r2 p2 a2 x2 kp2 ka2). Qed.
Print Assumptions C46_compiled_return_partial.

Example C46_call_example : same_plugin call_rt call_rt /\ running (mkIst call_rt 5 6) /\
  holds 65536 true true (mkIst call_rt 5 6) (machine 65536 (mkIst call_rt 5 6)) /\
  8 <= sp call_rt /\ - 100 <= StackSizeForLocalSlots callee < 0 /\ room 100 call_rt /\ load32 (mem call_rt) (sp call_rt) = 2 /\
  ~ room 64000 call_rt.
Proof. exact call_case. Qed.

(* C46.  The interpreter takes a heap cell for each call and compiled code does not: addresses of heap arrays differ between
   the engines inside a call. *)
Theorem C46_call_heap_refuted : exists r mi, running (mkIst r 5 6) /\ slot_table_ok mi /\ room 100 r /\
  exists r', enter mi r = Ok tt r' /\ hp r' = hp (on_entry (StackSizeForLocalSlots mi) r) + 4.
Proof. exact call_heap_case. Qed.
Print Assumptions C46_call_heap_refuted.

(* C25.  In a compiled method, a run that takes no recorded backward jump (the watchdog redirects recorded ones), no switch and
   no fall-through to an earlier block, is bounded in length and never returns to where it started.
   Missing: switches and such fall-throughs, for which it is false: C25_compiled_loop_refuted. *)
Theorem C25_compiled_polls_partial base env fp natives junk code m mi strict rounds fuel pr g an :
  code_ok code -> counts_ok code m -> build strict rounds fuel code m = CGood (pr, g, an) ->
  forall k j j', in_method code m pr g j -> quietly base env fp natives junk code mi g (an_rpo an) k j j' ->
  Z.of_nat k < (Z.of_nat (length (an_rpo an)) + 1) * (Z.of_nat (length code) + 1) /\
  (k <> 0%nat -> (j_block j', j_cell j') <> (j_block j, j_cell j)).
Proof. exact (whole_polls base env fp natives junk code m mi strict rounds fuel pr g an). Qed.
Print Assumptions C25_compiled_polls_partial.

Example C25_compiled_example base env fp natives junk pr g a x : build true 50 50 countdown 0 = CGood (pr, g, a) ->
  in_method countdown 0 pr g (mkJat 0 1 x) /\
  exists x', quietly base env fp natives junk countdown no_locals g (an_rpo a) 1 (mkJat 0 1 x) (mkJat 0 3 x').
Proof. exact (cd_quiet base env fp natives junk pr g a x). Qed.

(* C25.  A loop in a method the verifier accepts, compiled to jumps none of which is recorded: the watchdog cannot stop it. *)
Theorem C25_compiled_loop_refuted : exists code m strict rounds fuel pr g a b,
  (exists v, Ver_Model.verify true 60 200 (Ver_Cases.plain code) (4 * m) = CGood (Some v)) /\
  code_ok code /\ counts_ok code m /\ build strict rounds fuel code m = CGood (pr, g, a) /\
  reaches code m b /\ In b (g_known g) /\
  forall base env fp natives junk mi s x n, holds base true true s x -> pri s = 1 ->
    exists j', unrecorded base env fp natives junk code mi g (an_rpo a) (n + n) (mkJat b b x) j'.
Proof. exact us_runs. Qed.
Print Assumptions C25_compiled_loop_refuted.
