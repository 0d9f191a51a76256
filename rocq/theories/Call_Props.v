(* C04, C22: calling a plugin function from the host. *)
From Verif Require Import Base Rt_Model Rt_Spec Array_Exec Exc_Model Call_Model Call_Spec Call_Proofs.

(* The runtime's Invoke, for every callee whatsoever: if the function can be called, the callee starts
   with the parameters and their count on its stack, and afterwards the stack, heap, frame and
   heap-scope pointers are what they were, whatever it did to them; otherwise nothing changes and an
   error is reported. *)
Theorem C04_runtime_call strict t callee params h :
  let s := h_rt h in let n := Z.of_nat (length params) in
  quiet h -> layout s -> pointers_ok s -> 4 * (n + 1) < two31 - 64 -> Forall is_i32 params ->
  (ready t s n -> exists h1, delivered params s (h_rt h1) /\ h_obj h1 = h_obj h /\ h_env h1 = h_env h /\
     (forall ok h2, callee h1 = Ok ok h2 -> exists h', RtInvoke strict t callee params h = Ok ok h' /\
        regs_eq s (h_rt h') /\ same_plugin (h_rt h2) (h_rt h') /\ mem (h_rt h') = mem (h_rt h2) /\
        h_obj h' = h_obj h2 /\ h_env h' = h_env h2)) /\
  (~ ready t s n -> exists h' e, RtInvoke strict t callee params h = Ok false h' /\ reports h h' e).
Proof. exact (fun Q L P => rt_invoke strict t callee params h Q (conj L P)). Qed.
Print Assumptions C04_runtime_call.

(* A function object's Invoke with arguments of every kind but 64-bit integers.  If they fit, the callee
   starts with them in order, by-reference ones in memory of their own holding what the host passed;
   when it returns the pointers are the caller's, and the objects flagged for copy-back have the
   callee's final values exactly if it succeeded.  If not, the call is refused and nothing changes.
   Missing: fewer than 68 free bytes, and callees that overwrite the runtime's heap-scope link (both
   refuted below). *)
Theorem C04_call_partial strict t callee args h : let s := h_rt h in
  quiet h -> layout s -> pointers_ok s -> scope_ok s -> Forall (proper (h_obj h)) args -> (length args <= 32)%nat ->
  hp s + 68 <= sp s ->
  (callable t s args -> exists h1 ps, called h h1 args ps /\
     forall ok h2, callee h1 = Ok ok h2 -> proper_callee h h2 (hp s) ok ->
       exists h', Invoke strict t callee (mkArgs args false) h = Ok ok h' /\ returned h h2 h' args ps ok) /\
  (~ callable t s args -> exists h', Invoke strict t callee (mkArgs args false) h = Ok false h' /\ refused h h').
Proof. exact (fun Q L P => invoke_whole strict t callee args h Q (conj L P)). Qed.
Print Assumptions C04_call_partial.

(* With fewer than 68 free bytes the call is refused but leaves the caller's heap scope: its heap memory
   is released and the scope pointer moves outwards.  With assertions the program stops. *)
Theorem C04_low_heap_refuted : exists s s' h', fresh s /\ perform_all tight s = Ok tt s' /\ layout s' /\ pointers_ok s' /\ scope_ok s' /\
  Invoke false run_t nop no_args (at_host s') = Ok false h' /\ hp (h_rt h') < hp s' /\ hp_scope (h_rt h') <> hp_scope s' /\
  Invoke true run_t nop no_args (at_host s') = UB UBAssert.
Proof. exact low_heap. Qed.
Print Assumptions C04_low_heap_refuted.

(* A callee that stores, as scripts may, to the heap cell below its arguments changes where the
   caller's heap scope points. *)
Theorem C04_forged_link_refuted : exists s a v h', fresh s /\ Invoke false run_t (store_at a v) no_args (at_host s) = Ok true h' /\
  hp_scope (h_rt h') <> hp_scope s.
Proof. exact forged_link. Qed.
Print Assumptions C04_forged_link_refuted.

(* Pushed arguments are kept in order up to 32; one more sets the error flag. *)
Theorem C22_push_order args : fold_left push args no_args = mkArgs (firstn 32 args) (32 <? length args)%nat.
Proof. exact (pushes args). Qed.
Print Assumptions C22_push_order.

(* A call with the error flag runs nothing, changes nothing and reports the parameter error. *)
Theorem C22_too_many strict t callee args h : quiet h -> paused t = false -> (32 < length args)%nat ->
  exists h', Invoke strict t callee (fold_left push args no_args) h = Ok false h' /\ reports h h' PARAMS_MAX.
Proof. exact (too_many strict t callee args h). Qed.
Print Assumptions C22_too_many.

(* A 64-bit argument: its value is used as an address. *)
Theorem C22_int64_refuted : exists s v, fresh s /\ callable run_t s [AInt64 v] /\
  forall strict callee, Invoke strict run_t callee (mkArgs [AInt64 v] false) (at_host s) = UB UBMem.
Proof. exact int64_arg. Qed.
Print Assumptions C22_int64_refuted.

(* Five arguments: a cell, a reference, an array, a UTF-8 string copied back and a plain string. *)
Example C04_case : quiet ex_h /\ layout (h_rt ex_h) /\ pointers_ok (h_rt ex_h) /\ scope_ok (h_rt ex_h) /\
  Forall (proper (h_obj ex_h)) ex_args /\ callable run_t (h_rt ex_h) ex_args.
Proof. exact ex_ok. Qed.
Example C22_case : match Invoke true run_t ex_callee (mkArgs ex_args false) ex_h with
  | Ok true h' => (hp (h_rt h') =? hp small_rt) && (sp (h_rt h') =? sp small_rt) && (hd 0 (h_obj h' 0%nat) =? 2) && (hd 0 (h_obj h' 2%nat) =? 0x42)
  | _ => false end = true.
Proof. exact ex_run. Qed.
