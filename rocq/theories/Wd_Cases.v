(* Concrete schedules. *)
From Verif Require Import Base Wd_Model Wd_Spec Wd_Proofs Wd_Hand.

Definition begin : wd := start (word 7) 0.
Definition at_end (es : list event) : wd := match run es begin with Some s => s | None => begin end.
Definition a_check : list event := [TTimeout; TReadId; TReadTop].
(* A function with two loop edges; each displacement and what it is exchanged with. *)
Definition two_edges : list edge := [(-20, 400); (-8, 380)].
Definition to_first : list event := [TStart; ELink two_edges; EEnter; ETop] ++ a_check ++ a_check.
Definition to_second : list event := to_first ++ [TTimeout; TReadId; EEnter; ETop; ELeave].
Definition fire : list event := [TReadTop; TFire; TPatch; TPark].
Definition handle : list event := [EUnpatch; EClear; ENotify].
(* The outermost invocation runs on, with a nested one during the last check: the time-out is raised, met at a loop edge
   and handled. *)
Definition a_timeout : list event := to_second ++ fire ++ [EEdge 0 1] ++ handle.
Definition aftermath : list event := [ELeave; TResume; EEnter; ETop; EPoll; EEdge 0 0; EEdge 0 1] ++ a_check ++ [ELeave; EUnload 0].

Ltac sched := vm_compute; repeat first [exact Logic.I|reflexivity|apply conj].
Lemma second_fires : exists s s', run to_second begin = Some s /\ step TReadTop s = Some s' /\ w s' = WFire.
Proof. exists (at_end to_second), (at_end (to_second ++ [TReadTop])). sched. Qed.
Lemma timeout_orderly : orderly (a_timeout ++ aftermath) begin.
Proof. sched. Qed.
Lemma timeout_seen : exists s, run (to_second ++ fire ++ [EEdge 0 1]) begin = Some s /\ handling s = true /\ timedout s = true /\
  map now (funs s) = [[(400, -20); (380, -8)]].
Proof. exists (at_end (to_second ++ fire ++ [EEdge 0 1])). sched. Qed.
Lemma timeout_handled : exists s, run a_timeout begin = Some s /\ m s = MRun /\ timedout s = false /\
  map now (funs s) = [two_edges] /\ w s = WWoke.
Proof. exists (at_end a_timeout). sched. Qed.
Lemma aftermath_runs : exists s s', run a_timeout begin = Some s /\ orderly aftermath s /\ existsb fires aftermath = false /\
  run aftermath s = Some s'.
Proof. exists (at_end a_timeout), (at_end (a_timeout ++ aftermath)). sched. Qed.

(* The invocation that was running at the first check ends, and another begins, between the two reads of the second
   check: the time-out is raised all the same. *)
Definition raced : list event := to_first ++ [TTimeout; TReadId; ELeave; EEnter; ETop].
Lemma race : exists p q r s s', raced = p ++ q ++ r /\ run raced begin = Some s /\ step TReadTop s = Some s' /\ w s' = WFire /\
  p = to_first /\ open_after p 0 = 1%nat /\ open_after (p ++ q) 0 = 0%nat /\ open_after raced 0 = 1%nat /\
  outermost p 0 = 1%nat /\ outermost raced 0 = 2%nat.
Proof. exists to_first, [TTimeout; TReadId; ELeave], [EEnter; ETop], (at_end raced), (at_end (raced ++ [TReadTop])). sched. Qed.
(* The invocation ends after the second check and before the flag is set: the next one gets the error. *)
Definition bystander : list event := to_first ++ [TTimeout; TReadId; TReadTop; ELeave; TFire; TPatch; TPark; EEnter; ETop; EPoll].
Lemma innocent : exists s, run bystander begin = Some s /\ orderly bystander begin /\ handling s = true /\ depth s = 1%nat /\
  outermost to_first 0 = 1%nat /\ outermost bystander 0 = 2%nat.
Proof. exists (at_end bystander). sched. Qed.
(* A function linked while the time-out is pending is left patched; its first loop edge raises a time-out though none is
   pending, and handling that one patches the functions that were in order. *)
Definition late_link : list event :=
  to_second ++ fire ++ [ELink [(-16, 500)]; EPoll] ++ handle ++ [TResume; ELeave].
Lemma linked_late : exists s, run late_link begin = Some s /\ timedout s = false /\ handling s = false /\
  map now (funs s) = [two_edges; [(500, -16)]] /\
  exists s1, run [EEnter; ETop; EEdge 1 0] s = Some s1 /\ handling s1 = true /\
  exists s2, run handle s1 = Some s2 /\ map now (funs s2) = [[(400, -20); (380, -8)]; [(-16, 500)]].
Proof.
  exists (at_end late_link). split; [sched|]. split; [sched|]. split; [sched|]. split; [sched|].
  exists (at_end (late_link ++ [EEnter; ETop; EEdge 1 0])). split; [sched|]. split; [sched|].
  exists (at_end (late_link ++ [EEnter; ETop; EEdge 1 0] ++ handle)). sched.
Qed.
(* wait returns unasked while a time-out is pending: two checks later everything is exchanged again, and handling leaves
   it patched. *)
Definition woken : list event :=
  to_second ++ fire ++ [TSpurious; TResume; TTimeout; TReadId; TReadTop] ++ a_check ++ [TTimeout; TReadId] ++ fire ++ [EPoll] ++ handle.
Lemma spurious : exists s, run woken begin = Some s /\ timedout s = false /\ handling s = false /\
  map now (funs s) = [[(400, -20); (380, -8)]].
Proof. exists (at_end woken). sched. Qed.
Lemma once_case : exists s s', orderly (to_second ++ [TReadTop]) begin /\ run (to_second ++ [TReadTop]) begin = Some s /\ step TFire s = Some s'.
Proof. exists (at_end (to_second ++ [TReadTop])), (at_end (to_second ++ [TReadTop; TFire])). sched. Qed.
(* Shut down while a time-out is pending. *)
Lemma shutdown_case : exists s, orderly (to_second ++ fire ++ [EShutdown]) begin /\ run (to_second ++ fire ++ [EShutdown]) begin = Some s /\
  m s = MJoin /\ timedout s = true.
Proof. exists (at_end (to_second ++ fire ++ [EShutdown])). sched. Qed.
