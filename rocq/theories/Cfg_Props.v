(* C09, C11, C25, C41: control flow of verified bytecode. *)
From Verif Require Import Base Rt_Model Array_Model Interp_Model Cfg_Model Cfg_Spec Cfg_Proofs.

(* If the verifier's passes over the instruction stream accept a method, then from every cell execution
   can reach, falling through and jumping lead to first cells of instructions of that same method, and
   jump offsets are exact multiples of the cell size. *)
Theorem C09_flow code m pc : code_ok code -> accepted code m -> reaches code m pc ->
  insn_of code m pc /\ decode code pc <> None /\
  (falls_through code pc -> insn_of code m (pc + insn_size code pc)) /\
  (forall o, jumps_to code pc o -> 0 <= o /\ o mod 4 = 0 /\ insn_of code m (o / 4)).
Proof. exact (fun CO => flow_ok code m CO pc). Qed.
Print Assumptions C09_flow.

(* The same of the interpreter: while a program whose called methods are all accepted runs, every
   activation is at an instruction of its own method, ... *)
Theorem C09_run strict fe p t mi o args r b c c' :
  code_ok (p_code p) -> enters_accepted p -> p_validate p o = inl mi ->
  start mi o args r = Next b c -> runs strict fe p t c c' ->
  exists ms, Forall2 (fun a m => insn_of (p_code p) m (a_pc a)) (c_cur c' :: c_callers c') ms.
Proof. exact (run_ok strict fe p t mi o args r b c c'). Qed.
Print Assumptions C09_run.

(* ... it changes method only by calling one, which is then entered at its start, and returning, ... *)
Theorem C09_step strict fe p t c ms b c' :
  code_ok (p_code p) -> enters_accepted p -> placed p c ms -> step strict fe p t c = Next b c' ->
  exists ms', placed p c' ms' /\ method_change p c ms ms'.
Proof. exact (fun CO EA => step_placed strict fe p t CO EA c ms b c'). Qed.
Print Assumptions C09_step.

(* ... and no jump or switch faults: it continues or the watchdog stops it. *)
Theorem C09_jumps strict fe p t c ms :
  code_ok (p_code p) -> placed p c ms -> (exists o, jumps_to (p_code p) (a_pc (c_cur c)) o) ->
  Forall (counts_ok (p_code p)) ms ->
  (exists b c', step strict fe p t c = Next b c') \/ step strict fe p t c = Stop TIMEOUT (c_rt c).
Proof. exact (fun CO => jump_no_fault strict fe p t CO c ms). Qed.
Print Assumptions C09_jumps.

Example C09_example : code_ok tour /\ accepted tour 0 /\ counts_ok tour 0 /\
  jumps_to tour 1 48 /\ falls_through tour 1 /\ jumps_to tour 3 4 /\ reaches tour 0 16.
Proof. exact (conj tour_ok (conj tour_accepted (conj tour_counts tour_flow))). Qed.

(* The two passes over the instructions finish, in time quadratic in the code, if no case table has a
   negative count.  Missing here: the graph analyses (C11_build_partial). *)
Theorem C11_scan_partial strict code m fuel :
  code_ok code -> 0 <= m -> counts_ok code m ->
  ((length code + 2) * (length code + 2) <= fuel)%nat -> scan_method strict fuel code m <> CLoop.
Proof. exact (scan_finishes strict code m fuel). Qed.
Print Assumptions C11_scan_partial.

(* With a negative count the pass can go round for ever (assertions compiled out). *)
Theorem C11_negative_count_refuted : exists code, code_ok code /\
  forall fuel, scan_method false fuel code 0 = CLoop.
Proof. exact negative_count_exists. Qed.
Print Assumptions C11_negative_count_refuted.

(* Verification only reads the code, if no case table has a negative count, ... *)
Theorem C41_reads_code_partial strict code m fuel :
  code_ok code -> 0 <= m -> counts_ok code m ->
  ((length code + 2) * (length code + 2) <= fuel)%nat -> scan_method strict fuel code m <> CUndef UBMem.
Proof. exact (scan_reads strict code m fuel). Qed.
Print Assumptions C41_reads_code_partial.

(* ... but with one it reads before the first cell or past the last. *)
Theorem C41_reads_code_refuted : exists before after fuel,
  code_ok before /\ code_ok after /\
  scan_method false fuel before 0 = CUndef UBMem /\ scan_method false fuel after 0 = CUndef UBMem.
Proof. exact negative_reads_exists. Qed.
Print Assumptions C41_reads_code_refuted.

(* In a run of an accepted program, an activation that gets back to where it was, or to an earlier
   instruction of its method, has consulted the watchdog or executed a SWITCH: without that its
   program counter only grows, whatever the calls it makes do. *)
Theorem C25_loops_poll_partial strict fe p t c ms c1 c2 :
  code_ok (p_code p) -> enters_accepted p ->
  (forall m, accepted (p_code p) m -> counts_ok (p_code p) m) ->
  placed p c ms -> step strict fe p t c = Next false c1 -> (depth c <= depth c1)%nat ->
  ~ is_switch (decode (p_code p) (a_pc (c_cur c))) -> unpolled strict fe p t (depth c) c1 c2 ->
  depth c2 = depth c -> a_pc (c_cur c) < a_pc (c_cur c2).
Proof. exact (fun CO EA CK => loops_poll strict fe p t CO EA CK c ms c1 c2). Qed.
Print Assumptions C25_loops_poll_partial.

(* A loop closed by a SWITCH runs for ever without consulting the watchdog. *)
Theorem C25_switch_loop_refuted : exists code, code_ok code /\ accepted code 0 /\ counts_ok code 0 /\
  forall strict fe p t c, p_code p = code -> a_pc (c_cur c) = 1 ->
  forall k, exists c', silent strict fe p t k c c' /\ a_pc (c_cur c') = 1 /\ depth c' = depth c.
Proof. exact switch_loop_exists. Qed.
Print Assumptions C25_switch_loop_refuted.
