(* C45: a function's heap use does not grow with the number of rounds its loops make. *)
From Verif Require Import Base Rt_Model Rt_Spec Hist_Proofs Hs_Model Hs_Spec Hs_Proofs Hs_Vm Hs_Cases.

(* Wherever a function has got to on one of its paths, it holds at most [need f] bytes of heap; once it is through it
   holds none; and its next heap instruction succeeds if that much lies between the heap and the stack.  Missing: see
   [tame] and the refutations. *)
Theorem C45_bounded_partial : forall f evs o s g e rest s' g',
  path [] 0 (TStmt true f) evs o -> tame true f = true -> history s g -> hp s + need f + mem_size s + 64 < two31 ->
  evs = e ++ rest -> along s g e s' g' ->
  hp s' <= hp s + need f /\
  (rest = [] -> o = Nrm -> hp s' = hp s /\ hp_scope s' = hp_scope s /\ g' = g) /\
  (forall x r, rest = x :: r -> hp s + need f + 64 <= sp s' -> exists s'', perform x s' = Ok tt s'').
Proof. exact heap_bounded. Qed.
Print Assumptions C45_bounded_partial.
(* The same for the heap instructions alone. *)
Theorem C45_runs_partial : forall f evs o s g, path [] 0 (TStmt true f) evs o -> tame true f = true -> history s g ->
  hp s + need f + mem_size s + 64 < two31 -> hp s + need f + 64 <= sp s ->
  exists s', perform_all evs s = Ok tt s' /\ hp s' <= hp s + need f /\ (o = Nrm -> hp s' = hp s /\ hp_scope s' = hp_scope s).
Proof. exact heap_straight. Qed.
Print Assumptions C45_runs_partial.
(* A statement taken to end in return is never passed. *)
Theorem C45_flow : forall sc lp ctx s e o, path sc lp (TStmt ctx s) e o -> flow s = FReturn -> o <> Nrm.
Proof. exact (fun sc lp ctx s => flow_sound sc lp (TStmt ctx s)). Qed.
Print Assumptions C45_flow.
Theorem C45_continue_refuted : exists evs s s', path [] 0 (TStmt true bad_continue) evs Stop /\ fresh s /\ need bad_continue <= 500 /\
  sp s - hp s >= 16000 /\ perform_all evs s = Fail HEAPLOW s'.
Proof. exact leak_continue. Qed.
Print Assumptions C45_continue_refuted.
Theorem C45_break_refuted : exists evs s s', path [] 0 (TStmt true bad_break) evs Stop /\ fresh s /\ need bad_break <= 500 /\
  sp s - hp s >= 16000 /\ perform_all evs s = Fail HEAPLOW s'.
Proof. exact leak_break. Qed.
Print Assumptions C45_break_refuted.
Theorem C45_for_condition_refuted : exists evs s s', path [] 0 (TStmt true bad_for) evs Stop /\ fresh s /\ need bad_for <= 500 /\
  sp s - hp s >= 16000 /\ perform_all evs s = Fail HEAPLOW s'.
Proof. exact leak_for. Qed.
Print Assumptions C45_for_condition_refuted.

Example C45_many_rounds : forall n, exists s', path [] 0 (TStmt true good) (rounds n good_round) Nrm /\
  perform_all (rounds n good_round) demo_rt = Ok tt s' /\ hp s' = hp demo_rt.
Proof. exact good_runs. Qed.
Example C45_good : tame true good = true /\ need good = 660. Proof. exact good_tame. Qed.
Example C45_along : exists s', along demo_rt [] [OScopeIn; OHeap 400] s' [Scope (hp demo_rt) (-1)] /\ hp s' = hp demo_rt + 404 /\
  sp s' < sp demo_rt.
Proof. exact good_along. Qed.
