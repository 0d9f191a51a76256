(* C53: enough memory is set aside for the functions that are active at one
   time. *)
From Coq Require Import ZArith List Bool.
From Verif Require Import Aside_Model Aside_Spec Aside_Proofs Aside_Cases.
Import ListNotations.
Local Open Scope Z_scope.

(* Whoever calls whom, the computation ends. *)
Theorem C53_computation_ends : forall loc g script, compute loc g script <> OutOfFuel.
Proof. exact compute_ends. Qed.
Print Assumptions C53_computation_ends.

(* Without recursion, a chain of calls fits in the memory set aside.  Missing:
   chains that do not start at the function the table happens to list first,
   see below. *)
Theorem C53_chains_fit_partial : forall loc g script st custom,
  listed_once g -> no_recursion g -> (forall f, 0 < loc f) -> has_calls g ->
  compute loc g script = Done st -> 0 <= script < kMaxCells -> custom < 2 ^ 29 ->
  forall f s, starts_at g f -> chain g loc f s -> 4 * s <= set_aside (m_script st) custom.
Proof. exact chains_fit. Qed.
Print Assumptions C53_chains_fit_partial.

(* Every function fits by itself, and no less is set aside than asked for. *)
Theorem C53_single_fits : forall loc g script st custom,
  listed_once g -> no_recursion g -> (forall f, 0 < loc f) -> has_calls g ->
  compute loc g script = Done st -> 0 <= script < kMaxCells -> custom < 2 ^ 29 ->
  4 * script <= set_aside (m_script st) custom /\ 4 * custom <= set_aside (m_script st) custom.
Proof. exact single_fit. Qed.
Print Assumptions C53_single_fits.

(* The estimate is no greater than what some chain, or some function, takes. *)
Theorem C53_no_more_than_needed : forall loc g script st bound,
  listed_once g -> no_recursion g -> (forall f, 0 < loc f) -> has_calls g ->
  compute loc g script = Done st -> script <= bound -> (forall f s, chain g loc f s -> s <= bound) ->
  m_script st <= bound.
Proof. exact no_more. Qed.
Print Assumptions C53_no_more_than_needed.

(* A chain starting elsewhere need not fit. *)
Theorem C53_other_chains_refuted :
  exists st, compute loc2 two_roots 100000 = Done st /\
    chain two_roots loc2 3 200000 /\ set_aside (m_script st) 0 < 4 * 200000.
Proof. exact two_roots_bad. Qed.
Print Assumptions C53_other_chains_refuted.

(* Asking for 2^30 cells sets nothing aside. *)
Theorem C53_huge_request_refuted : set_aside 16 (2 ^ 30) = 0.
Proof. exact huge_pragma. Qed.
Print Assumptions C53_huge_request_refuted.

Example C53_case :
  listed_once diamond /\ no_recursion diamond /\ (forall f, 0 < loc4 f) /\ has_calls diamond /\
  starts_at diamond 1 /\ chain diamond loc4 1 800 /\
  exists st, compute loc4 diamond 500 = Done st /\ m_script st = 800 /\ set_aside (m_script st) 0 = 4 * 4896.
Proof. exact diamond_case. Qed.
