(* Finite sets of numbers, as predicates, and histories of bit set operations. *)
From Verif Require Import Base Bits_Model.

(* The set a bit set stands for. *)
Definition member (b : bitset) (x : Z) : Prop := test b x = true.

Inductive bop : Type :=
| Insert (x : Z) | Remove (x : Z) | Union (history : list bop) | TakeAny.

(* What the operations do. *)
Fixpoint apply_op (o : bop) (b : bitset) : bitset :=
  match o with
  | Insert x => set_bit b x
  | Remove x => unset b x
  | Union h => or_with b ((fix go (h : list bop) (b : bitset) :=
                             match h with [] => b | o :: h' => go h' (apply_op o b) end) h empty_set)
  | TakeAny => fst (take_any b)
  end.
Definition apply_all (h : list bop) (b : bitset) : bitset := fold_left (fun b o => apply_op o b) h b.

(* What they should do to a set.  Taking removes one element, any, or nothing from an empty set. *)
Notation zset := (Z -> Prop).
Definition same (s t : zset) : Prop := forall x, 0 <= x -> (s x <-> t x).
Inductive set_op : bop -> zset -> zset -> Prop :=
| SInsert x (s : zset) : set_op (Insert x) s (fun y => y = x \/ s y)
| SRemove x (s : zset) : set_op (Remove x) s (fun y => s y /\ y <> x)
| SUnion h (s t : zset) : set_run h (fun _ => False) t -> set_op (Union h) s (fun y => s y \/ t y)
| STake x (s : zset) : 0 <= x -> s x -> set_op TakeAny s (fun y => s y /\ y <> x)
| STakeNone (s : zset) : (forall x, 0 <= x -> ~ s x) -> set_op TakeAny s s
with set_run : list bop -> zset -> zset -> Prop :=
| RNil s t : same s t -> set_run [] s t
| RCons o h s t u : set_op o s t -> set_run h t u -> set_run (o :: h) s u.

(* Numbers the operations are given are non-negative (they are uintptr_t). *)
Fixpoint natural (o : bop) : Prop :=
  match o with
  | Insert x | Remove x => 0 <= x
  | Union h => (fix go (h : list bop) := match h with [] => True | o :: h' => natural o /\ go h' end) h
  | TakeAny => True
  end.

(* Bit sets a program can have. *)
Definition built (b : bitset) : Prop := exists h, Forall natural h /\ b = apply_all h empty_set.
