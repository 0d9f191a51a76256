(* C01, C02, C10: whole calls into verified programs. *)
From Verif Require Import Base Rtti_Model Rtti_Spec Rt_Model Array_Model Interp_Model Rt_Spec Mem_Spec Cfg_Model Cfg_Spec Dom_Model Ver_Model
  Ver_Spec Run_Spec Run_Proofs Run_Cases.

(* However long a call into a verified program runs, and whatever it calls, it touches no memory but the plugin's own, as
   long as at each step what the engine relies on holds.  Missing: programs that break it (refuted below, one by one), and
   instructions asking for a gigabyte of heap (refuted below). *)
Theorem C01_run_partial env fe p t args r : verified env p -> small_heap env -> host_ok env p fe -> ready env args r ->
  (forall o mi, p_validate p o = inl mi -> start mi o args r <> Undef UBMem) /\
  forall c fs, monitored env fe p t args r c fs -> confined r (c_rt c) /\ in_bounds (c_rt c) /\
    (relies env c fs ->
     match step false fe p t c with
     | Next _ c' => confined r (c_rt c') /\ in_bounds (c_rt c')
     | Done _ r' | Stop _ r' => confined r r'
     | Undef u => u <> UBMem
     end).
Proof. exact (run_confined env fe p t args r). Qed.
Print Assumptions C01_run_partial.

(* Stack and heap never cross on the way, nor when the call returns. *)
Theorem C02_run_partial env fe p t args r : verified env p -> small_heap env -> host_ok env p fe -> ready env args r ->
  forall c fs, monitored env fe p t args r c fs -> pointers_ok (c_rt c) /\
    (relies env c fs -> forall v r', step false fe p t c = Done v r' -> pointers_ok r').
Proof. exact (run_ordered env fe p t args r). Qed.
Print Assumptions C02_run_partial.

(* The stack pointer lies below the frame by the method's local slots and exactly the cells the verifier counted; every
   activation has its own frame; and the call returns with the stack and frame it was entered with. *)
Theorem C10_run_partial env fe p t args r : verified env p -> small_heap env -> host_ok env p fe -> ready env args r ->
  forall c fs, monitored env fe p t args r c fs ->
  (exists o prev d, p_validate p o = inl (a_meth (c_cur c)) /\ at_depth (v_code env) (o / 4) prev (a_pc (c_cur c)) d /\
     sp (c_rt c) = frm (c_rt c) + StackSizeForLocalSlots (a_meth (c_cur c)) - 4 * d) /\
  map fr_at fs = frm (c_rt c) :: map fr_at (tl fs) /\ length fs = length (c_cur c :: c_callers c) /\
  (relies env c fs -> forall v r', step false fe p t c = Done v r' -> sp r' = sp r /\ frm r' = frm r).
Proof. exact (run_depth env fe p t args r). Qed.
Print Assumptions C10_run_partial.

(* A recursive program with heap scopes and a native. *)
Example run_example : exists env p fe r, verified env p /\ small_heap env /\ host_ok env p fe /\ ready env [] r /\
  (exists c fs, monitored env fe p on_time [] r c fs /\ relies env c fs /\ length fs = 7%nat) /\
  exists c fs r', monitored env fe p on_time [] r c fs /\ relies env c fs /\ step false fe p on_time c = Done 7 r'.
Proof. exact recursion_case. Qed.

(* A verified program that asks for nearly two gigabytes of heap writes outside its memory. *)
Theorem C01_huge_heap_run_refuted : exists env p fe r, verified env p /\ host_ok env p fe /\ ready env [] r /\ faults env p fe [] r.
Proof. exact huge_heap_case. Qed.
Print Assumptions C01_huge_heap_run_refuted.

(* So does one that overwrites the caller's frame kept on its stack, ... *)
Theorem C01_forged_frame_run_refuted : exists env p fe r, verified env p /\ small_heap env /\ host_ok env p fe /\ ready env [] r /\ faults env p fe [] r.
Proof. exact forged_frame_case. Qed.
Print Assumptions C01_forged_frame_run_refuted.

(* ... one that initialises an array at an odd address, ... *)
Theorem C01_odd_array_run_refuted : exists env p fe r, verified env p /\ small_heap env /\ host_ok env p fe /\ ready env [] r /\ faults env p fe [] r.
Proof. exact odd_array_case. Qed.
Print Assumptions C01_odd_array_run_refuted.

(* ... one that stores a 64-bit result in an argument far above its frame, ... *)
Theorem C01_far_slot_run_refuted : exists env p fe r, verified env p /\ small_heap env /\ host_ok env p fe /\ ready env [] r /\ faults env p fe [] r.
Proof. exact far_slot_case. Qed.
Print Assumptions C01_far_slot_run_refuted.

(* ... and one without static data that creates an array when its stack is nearly used up. *)
Theorem C01_low_array_run_refuted : exists env p fe r, verified env p /\ small_heap env /\ host_ok env p fe /\ ready env [] r /\ faults env p fe [] r.
Proof. exact low_array_case. Qed.
Print Assumptions C01_low_array_run_refuted.

(* A verified program that overwrites a heap scope's record puts its heap above its stack. *)
Theorem C02_forged_scope_run_refuted : exists env p fe r mi b c k c', verified env p /\ small_heap env /\ host_ok env p fe /\ ready env [] r /\
  p_validate p 0 = inl mi /\ start mi 0 [] r = Next b c /\ run false fe p on_time k c = inr c' /\ sp (c_rt c') < hp (c_rt c').
Proof. exact forged_scope_case. Qed.
Print Assumptions C02_forged_scope_run_refuted.
