(* C39: the bit set behaves as a set of numbers.  [built b]: b is the result of some history of
   insertions, removals, takes and unions with sets that are themselves built, starting from empty. *)
From Verif Require Import Base Bits_Model Bits_Spec Bits_Proofs.

(* Every history does what the same operations do to a mathematical set. *)
Theorem C39_history h : Forall natural h ->
  set_run h (fun _ => False) (member (apply_all h empty_set)).
Proof. exact (history_from_empty h). Qed.
Print Assumptions C39_history.

Theorem C39_insert b x y : built b -> 0 <= x -> 0 <= y -> (member (set_bit b x) y <-> y = x \/ member b y).
Proof. exact (insert_spec b x y). Qed.
Print Assumptions C39_insert.

Theorem C39_remove b x y : built b -> 0 <= x -> 0 <= y -> (member (unset b x) y <-> member b y /\ y <> x).
Proof. exact (remove_spec b x y). Qed.
Print Assumptions C39_remove.

Theorem C39_union b c y : built b -> built c -> 0 <= y -> (member (or_with b c) y <-> member b y \/ member c y).
Proof. exact (union_spec b c y). Qed.
Print Assumptions C39_union.

(* Taking returns a member and removes exactly it, or reports that there is none. *)
Theorem C39_take b : built b ->
  match take_any b with
  | (b', Some x) => 0 <= x /\ member b x /\ forall y, 0 <= y -> (member b' y <-> member b y /\ y <> x)
  | (b', None) => forall y, 0 <= y -> ~ member b y /\ ~ member b' y
  end.
Proof. exact (take_spec b). Qed.
Print Assumptions C39_take.

(* Iteration reports exactly the members, in increasing order, hence once each. *)
Theorem C39_iterate b : built b ->
  (forall y, In y (for_each b) <-> 0 <= y /\ member b y) /\
  (forall i j, (i < j < length (for_each b))%nat -> nth i (for_each b) 0 < nth j (for_each b) 0).
Proof. exact (iterate_spec b). Qed.
Print Assumptions C39_iterate.
