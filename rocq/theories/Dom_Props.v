(* C26, C11: the control-flow graph and its analyses. *)
From Verif Require Import Base Rt_Model Array_Model Interp_Model Cfg_Model Cfg_Spec Cfg_Proofs Dom_Model Dom_Spec Dom_Build.

(* The graph built for a method is its control flow: reachable blocks, each ending as its instructions
   say, with the successors they say. *)
Theorem C26_graph strict rounds fuel code m pr g a :
  code_ok code -> build strict rounds fuel code m = CGood (pr, g, a) -> blocks_ok code m pr g.
Proof. exact (fun CO H => proj1 (build_good strict rounds fuel code m pr g a CO H)). Qed.
Print Assumptions C26_graph.

(* The block order lists each reachable block once and puts a block's predecessors first, except along
   loop edges; recorded immediate dominators are the immediate dominators; the dominance test agrees with
   dominance; a block is marked a loop header exactly if some edge enters it from a block it dominates. *)
Theorem C26_analysis strict rounds fuel code m pr g a :
  code_ok code -> build strict rounds fuel code m = CGood (pr, g, a) -> analysed m (g_succ g) a.
Proof. exact (fun CO H => proj1 (proj2 (build_good strict rounds fuel code m pr g a CO H))). Qed.
Print Assumptions C26_analysis.

(* A scanned method is refused exactly if it can go round in circles without taking a loop edge. *)
Theorem C26_refusal strict rounds fuel code m pr g :
  code_ok code -> scan_method strict fuel code m = CGood (pr, g) -> build strict rounds fuel code m <> CLoop ->
  (build strict rounds fuel code m = CBad INVALID_INSTRUCTION <-> irreducible m (g_succ g)).
Proof. exact (build_rejects strict rounds fuel code m pr g). Qed.
Print Assumptions C26_refusal.

(* The same of the analyses on any finite graph: with enough steps they finish, without a null
   dereference or a failed assertion, and are right. *)
Theorem C26_any_graph entry succ pred : graph_ok entry succ pred ->
  exists n, forall rounds fuel, (n <= rounds)%nat -> (n <= fuel)%nat ->
  match analyse entry succ pred rounds fuel with
  | CGood a => analysed entry succ a /\ ~ irreducible entry succ
  | CBad e => e = INVALID_INSTRUCTION /\ irreducible entry succ
  | _ => False
  end.
Proof. exact (analyse_spec entry succ pred). Qed.
Print Assumptions C26_any_graph.

Example C26_example : code_ok tour /\ exists pr g a, build true 50 50 tour 0 = CGood (pr, g, a) /\
  g_edges g = [(0, 1); (1, 3); (1, 12); (3, 12); (3, 1)] /\ an_rpo a = [0; 1; 3; 12] /\
  map (an_idom a) [1; 3; 12] = [Some 0; Some 1; Some 1] /\ an_headers a = [1].
Proof. exact (conj tour_ok tour_built). Qed.

Example C26_refused_example : code_ok two_doors /\ build true 50 50 two_doors 0 = CBad INVALID_INSTRUCTION.
Proof. exact two_doors_rejected. Qed.

(* Building and analysing the graph finishes, reading only the code, if no case table has a negative
   count.  Missing: the instruction-by-instruction checks that follow. *)
Theorem C11_build_partial strict code m : code_ok code -> 0 <= m -> counts_ok code m ->
  exists n, forall rounds fuel, (n <= rounds)%nat -> (n <= fuel)%nat ->
  build strict rounds fuel code m <> CLoop /\ build strict rounds fuel code m <> CUndef UBMem.
Proof. exact (build_finishes strict code m). Qed.
Print Assumptions C11_build_partial.

Example C11_build_example : code_ok tour /\ counts_ok tour 0.
Proof. exact (conj tour_ok tour_counts). Qed.
