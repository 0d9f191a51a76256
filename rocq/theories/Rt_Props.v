(* C02, C03: stack and heap discipline, push/pop and frames. *)
From Verif Require Import Base Rt_Model Rt_Spec Rt_Proofs Hist_Proofs.

(* C02.  In every history that respects the discipline (releases stay in the innermost open
   scope or frame, scripts do not overwrite runtime bookkeeping, sizes are far from 2^31), the
   ordering data <= heap top <= stack top <= stack base holds at every point, including after a
   refused operation.  Missing from the English property: histories without the discipline, for
   which it is false (the two refutations below). *)
Theorem C02_ordered_partial : forall s g, history s g -> pointers_ok s.
Proof. exact (fun s g H => HI_ok s g (history_HI s g H)). Qed.
Print Assumptions C02_ordered_partial.

Theorem C02_every_operation_partial : forall s g o, history s g -> disciplined s g o ->
  match perform o s with
  | Ok _ s' => pointers_ok s'
  | Fail _ s' => pointers_ok s'
  | UB _ => False
  end.
Proof. exact history_step. Qed.
Print Assumptions C02_every_operation_partial.

Theorem C02_refused_operation_does_not_happen : forall s g o e s',
  history s g -> disciplined s g o -> simple_op o -> perform o s = Fail e s' -> s' = s.
Proof. exact simple_fail. Qed.
Print Assumptions C02_refused_operation_does_not_happen.

(* Which operations are refused, with which error, and what the others do. *)
Theorem C02_outcome : forall s g o r, history s g -> disciplined s g o -> (forall n, o = OTrackIn n -> is_i32 n) ->
  expected s o = Some r -> perform o s = r.
Proof. exact outcome. Qed.
Print Assumptions C02_outcome.

Example C02_outcome_both : exists s g, history s g /\ disciplined s g (OHeap 40) /\ disciplined s g (OHeap 20000) /\
  expected s (OHeap 40) = Some (Ok tt (set_hp (hp s + 40) s)) /\ expected s (OHeap 20000) = Some (Fail HEAPLOW s).
Proof. exact outcome_example. Qed.

(* The address an allocation hands out is the block [old heap top, old heap top + n). *)
Theorem C02_heap_block : forall s n, layout s -> pointers_ok s -> is_i32 (frm s) -> is_i32 (hp_scope s) ->
  amount_ok s n -> 0 <= n -> hp s + n + 64 <= sp s ->
  heapAlloc n s = Ok (hp s) (set_hp (hp s + n) s).
Proof. exact heap_block. Qed.
Print Assumptions C02_heap_block.

(* Leaving a heap scope releases exactly what was allocated in it; so does the legacy tracker. *)
Theorem C02_scope_released : forall s h old g, history s (Scope h old :: g) ->
  leaveHeapScope s = Ok tt (set_hp_scope old (set_hp h s)).
Proof. exact scope_out. Qed.
Print Assumptions C02_scope_released.

Theorem C02_tracker_released : forall s n s1,
  layout s -> pointers_ok s -> 0 <= n <= hp s - data_size s -> pushTracker n s = Ok tt s1 ->
  exists s2, popTrackerAndSetHeap s1 = Ok tt s2 /\ hp s2 = hp s - n /\ sp s2 = sp s /\ frm s2 = frm s /\
    hp_scope s2 = hp_scope s /\ mem s2 = mem s1.
Proof. exact track_in_out. Qed.
Print Assumptions C02_tracker_released.

(* A call with two arguments, a heap scope, an allocation and a store is such a history. *)
Example C02_history_exists : exists s g, history s g /\ length g = 2%nat /\ disciplined s g OLeave /\
  is_ok (perform OLeave s) = true.
Proof. exact history_example. Qed.

Theorem C02_huge_allocation_refuted : exists s s' n,
  fresh s /\ 0 <= n < two31 /\ perform (OHeap n) s = Ok tt s' /\ ~ pointers_ok s'.
Proof. exact forged_size. Qed.
Print Assumptions C02_huge_allocation_refuted.

Theorem C02_forged_scope_refuted : exists s s' os,
  fresh s /\ perform_all os s = Ok tt s' /\ hp s' < data_size s'.
Proof. exact forged_scope. Qed.
Print Assumptions C02_forged_scope_refuted.

(* C03. *)
Theorem C03_push_pop : forall s v s1, layout s -> pointers_inside s -> is_i32 v ->
  pushStack v s = Ok tt s1 ->
  exists s2, popStack s1 = Ok v s2 /\ regs_eq s s2 /\ unchanged_outside s s2 (sp s - 4) 4 /\
    same_plugin s s2.
Proof. exact push_pop. Qed.
Print Assumptions C03_push_pop.

(* Enter a frame from [s], let the callee do anything at all (reaching [s2]) except overwrite
   the three cells at its frame and the saved heap cell, or release the heap below its entry
   level; then leaving gives the caller back its frame, heap and scope, with exactly the declared
   arguments and their count removed from the stack. *)
Theorem C03_enter_leave : forall s s1 s2 n,
  layout s -> pointers_ok s -> is_i32 (frm s) -> is_i32 (hp_scope s) ->
  n = load32 (mem s) (sp s) -> 0 <= n -> sp s + 4 + 4 * n <= stp s ->
  pushAmxFrame s = Ok tt s1 ->
  same_plugin s1 s2 -> frm s2 = frm s1 -> hp s + 4 <= hp s2 ->
  bytes_kept s1 s2 (frm s1) 12 -> bytes_kept s1 s2 (hp s) 4 ->
  exists s3, popAmxFrame s2 = Ok tt s3 /\
    frm s3 = frm s /\ hp s3 = hp s /\ hp_scope s3 = hp_scope s /\ sp s3 = sp s + 4 + 4 * n /\
    mem s3 = mem s2.
Proof. exact enter_leave. Qed.
Print Assumptions C03_enter_leave.

(* The same along any disciplined history, however many frames and scopes were opened meanwhile:
   leaving restores what the matching entry recorded. *)
Theorem C03_history : forall s g f c h old n g', history s g ->
  drop_scopes g = Frame f c h old n :: g' ->
  exists s', popAmxFrame s = Ok tt s' /\ frm s' = c /\ hp s' = h /\ hp_scope s' = old /\
    sp s' = f + 12 + 4 * n /\ mem s' = mem s.
Proof. exact history_leave. Qed.
Print Assumptions C03_history.

(* What the entry recorded is the caller's state. *)
Example C03_recorded : forall s g, after s g OEnter =
  Frame (sp s - 8) (frm s) (hp s) (hp_scope s) (load32 (mem s) (sp s)) :: g.
Proof. reflexivity. Qed.
