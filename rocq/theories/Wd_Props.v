(* C38: the watchdog.  A run begins with the timer started, the frame id at some 64-bit value and [d] invocations open. *)
From Verif Require Import Base Wd_Model Wd_Spec Wd_Proofs Wd_Hand Wd_Cases.

(* When a check decides to raise the time-out, it and the check just before it (in between the watchdog neither looked
   nor fired) both found an invocation open, and no outermost one was entered from the first check's beginning to the
   second's.  So, unless one was entered while the second check itself was being made (C38_race_refuted), the same
   outermost invocation was open without interruption from the first check to the second. *)
Theorem C38_fire : forall id d tr s s', run tr (start (word id) d) = Some s -> Z.of_nat (outermost tr d) < 2 ^ 64 ->
  step TReadTop s = Some s' -> w s' = WFire ->
  exists p m1 p2 m2, tr = p ++ TReadId :: m1 ++ TReadTop :: p2 ++ TReadId :: m2 /\ quiet m1 /\ quiet p2 /\ quiet m2 /\
    outermost (p ++ TReadId :: m1 ++ TReadTop :: p2) d = outermost p d /\
    (open_after (p ++ TReadId :: m1) d > 0)%nat /\ (open_after tr d > 0)%nat /\
    (outermost tr d = outermost p d -> runs_through (p ++ TReadId :: m1) (TReadTop :: p2 ++ TReadId :: m2) d).
Proof. exact fire_same. Qed.
Print Assumptions C38_fire.
Example C38_fire_case : exists s s', run to_second begin = Some s /\ step TReadTop s = Some s' /\ w s' = WFire.
Proof. exact second_fires. Qed.

(* Entered during the second check: the invocation open at the first check has ended, another runs, and the time-out is
   raised. *)
Theorem C38_race_refuted : exists p q r s s', raced = p ++ q ++ r /\ run raced begin = Some s /\ step TReadTop s = Some s' /\ w s' = WFire /\
  p = to_first /\ open_after p 0 = 1%nat /\ open_after (p ++ q) 0 = 0%nat /\ open_after raced 0 = 1%nat /\
  outermost p 0 = 1%nat /\ outermost raced 0 = 2%nat.
Proof. exact race. Qed.
Print Assumptions C38_race_refuted.
(* The invocation may end between the decision and the raising: the next one is the one that fails. *)
Theorem C38_bystander_refuted : exists s, run bystander begin = Some s /\ orderly bystander begin /\ handling s = true /\ depth s = 1%nat /\
  outermost to_first 0 = 1%nat /\ outermost bystander 0 = 2%nat.
Proof. exact innocent. Qed.
Print Assumptions C38_bystander_refuted.

(* Whenever no time-out is pending, every loop edge of every linked function is as it was linked; provided no function
   was linked while one was pending (C38_late_link_refuted) and wait never returned unasked
   (C38_spurious_wakeup_refuted). *)
Theorem C38_restored_partial : forall id d es s, orderly es (start id d) -> run es (start id d) = Some s ->
  timedout s = false -> restored s.
Proof. exact (fun id d es s o r => phase_restored s (phase_reach es id d s o r)). Qed.
Print Assumptions C38_restored_partial.
Example C38_restored_case : orderly (a_timeout ++ aftermath) begin /\
  exists s, run a_timeout begin = Some s /\ m s = MRun /\ timedout s = false /\ map now (funs s) = [two_edges] /\ w s = WWoke.
Proof. exact (conj timeout_orderly timeout_handled). Qed.

(* The end of handling a time-out finds the watchdog waiting and wakes it, with the flag cleared and every edge
   restored. *)
Theorem C38_handled_partial : forall id d es s s', orderly es (start id d) -> run es (start id d) = Some s ->
  step ENotify s = Some s' -> w s' = WWoke /\ m s' = MRun /\ timedout s' = false /\ restored s'.
Proof. exact (fun id d es s s' o r => phase_notify s s' (phase_reach es id d s o r)). Qed.
Print Assumptions C38_handled_partial.

(* Handling always can be, and is, finished by what the two threads do by themselves. *)
Theorem C38_progress_partial : forall id d es s, orderly es (start id d) -> run es (start id d) = Some s -> handling s = true ->
  exists fs s', forallb own fs = true /\ run fs s = Some s' /\ m s' = MRun /\ timedout s' = false /\ restored s'.
Proof. exact (fun id d es s o r => phase_progress s (phase_reach es id d s o r)). Qed.
Print Assumptions C38_progress_partial.
Example C38_progress_case : exists s, run (to_second ++ fire ++ [EEdge 0 1]) begin = Some s /\ handling s = true /\ timedout s = true /\
  map now (funs s) = [[(400, -20); (380, -8)]].
Proof. exact timeout_seen. Qed.
(* So can shutting down, whatever the watchdog is doing when it is asked for. *)
Theorem C38_shutdown_partial : forall id d es s, orderly es (start id d) -> run es (start id d) = Some s -> m s = MJoin ->
  exists fs s', forallb own fs = true /\ run (fs ++ [EJoin]) s = Some s' /\ m s' = MGone /\ w s' = WDone.
Proof. exact (fun id d es s o r => phase_shutdown s (phase_reach es id d s o r)). Qed.
Print Assumptions C38_shutdown_partial.
Example C38_shutdown_case : exists s, orderly (to_second ++ fire ++ [EShutdown]) begin /\ run (to_second ++ fire ++ [EShutdown]) begin = Some s /\
  m s = MJoin /\ timedout s = true.
Proof. exact shutdown_case. Qed.

(* A time-out is never raised while one is pending or being handled. *)
Theorem C38_once_partial : forall id d es s s', orderly es (start id d) -> run es (start id d) = Some s ->
  m s <> MJoin -> m s <> MGone -> step TFire s = Some s' -> timedout s = false /\ handling s = false /\ restored s.
Proof. exact (fun id d es s s' o r => phase_fire s s' (phase_reach es id d s o r)). Qed.
Print Assumptions C38_once_partial.
Example C38_once_case : exists s s', orderly (to_second ++ [TReadTop]) begin /\ run (to_second ++ [TReadTop]) begin = Some s /\ step TFire s = Some s'.
Proof. exact once_case. Qed.
(* After a time-out has been handled, until the watchdog fires again (which takes two more checks, C38_fire) no call gets
   an error: neither a poll nor a loop edge reports one. *)
Theorem C38_normal_partial : forall id d es s0 s fs s', orderly es (start id d) -> run es (start id d) = Some s0 ->
  step ENotify s0 = Some s -> orderly fs s -> existsb fires fs = false -> run fs s = Some s' ->
  handling s' = false /\ timedout s' = false /\ restored s'.
Proof. exact handled_normal. Qed.
Print Assumptions C38_normal_partial.
Example C38_normal_case : exists s s', run a_timeout begin = Some s /\ orderly aftermath s /\ existsb fires aftermath = false /\
  run aftermath s = Some s'.
Proof. exact aftermath_runs. Qed.

(* A function linked while a time-out is pending is patched by its handling: afterwards its loop reports a time-out
   though none is pending, and handling that one patches all the others. *)
Theorem C38_late_link_refuted : exists s, run late_link begin = Some s /\ timedout s = false /\ handling s = false /\
  map now (funs s) = [two_edges; [(500, -16)]] /\
  exists s1, run [EEnter; ETop; EEdge 1 0] s = Some s1 /\ handling s1 = true /\
  exists s2, run handle s1 = Some s2 /\ map now (funs s2) = [[(400, -20); (380, -8)]; [(-16, 500)]].
Proof. exact linked_late. Qed.
Print Assumptions C38_late_link_refuted.
(* If wait returns unasked the watchdog goes on, exchanges everything again, and handling leaves it patched. *)
Theorem C38_spurious_wakeup_refuted : exists s, run woken begin = Some s /\ timedout s = false /\ handling s = false /\
  map now (funs s) = [[(400, -20); (380, -8)]].
Proof. exact spurious. Qed.
Print Assumptions C38_spurious_wakeup_refuted.
