(* What C35 says about the pools, in terms of the bytes written. *)
From Verif Require Import Base Pool_Model.

(* [run] occupies positions [i], [i]+1, ... of [l]. *)
Definition found_at (l : list Z) (i : Z) (run : list Z) : Prop :=
  exists before after, l = before ++ run ++ after /\ Z.of_nat (length before) = i.

Definition prefix_of (a b : list Z) : Prop := exists rest, b = a ++ rest.

(* A history of additions. *)
Fixpoint add_all (p : data_pool) (runs : list (list Z)) : data_pool :=
  match runs with [] => p | r :: rs => add_all (fst (pool_add p r)) rs end.

Fixpoint names_all (t : name_table) (strs : list (list Z)) : option name_table :=
  match strs with
  | [] => Some t
  | s :: ss => match name_add t s with Some (t', _) => names_all t' ss | None => None end
  end.

Definition contents (p : data_pool) : list Z := used (buffer p).
