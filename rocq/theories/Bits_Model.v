(* Model of the bit set: include/utils/bitset.h:29-128 on a 64-bit host.  The list of words is the
   vector words_.  The optional max_bits_ only feeds two assertions and is left out; running out of
   memory in resize is not modelled. *)
From Verif Require Import Base.

Definition kBitsPerWord : Z := 64.                      (* include/utils/bitset.h:115 *)
Definition word_for_bit (bit : Z) : nat := Z.to_nat (bit / kBitsPerWord).   (* 117-119 *)
Definition pos_in_word (bit : Z) : Z := bit mod kBitsPerWord.               (* 120-122 *)

Notation bitset := (list Z).
Definition empty_set : bitset := [].

(* std::vector::resize to a larger size: zero-filled. *)
Definition grow (b : bitset) (n : nat) : bitset := b ++ repeat 0 (n - length b).
Fixpoint update (b : bitset) (i : nat) (f : Z -> Z) : bitset :=
  match b, i with
  | [], _ => []
  | w :: ws, O => f w :: ws
  | w :: ws, S j => w :: update ws j f
  end.

(* uintptr_t(1) << pos *)
Definition bit_mask (pos : Z) : Z := 2 ^ pos.
(* w & ~mask on 64-bit words *)
Definition clear_bit (w pos : Z) : Z := Z.land w (two64 - 1 - bit_mask pos).

(* include/utils/bitset.h:43-48. *)
Definition test (b : bitset) (bit : Z) : bool :=
  let word := word_for_bit bit in
  if Nat.leb (length b) word then false
  else negb (Z.land (nth word b 0) (bit_mask (pos_in_word bit)) =? 0).

(* include/utils/bitset.h:50-56. *)
Definition set_bit (b : bitset) (bit : Z) : bitset :=
  let word := word_for_bit bit in
  let b := if Nat.leb (length b) word then grow b (S word) else b in
  update b word (fun w => Z.lor w (bit_mask (pos_in_word bit))).

(* include/utils/bitset.h:58-63. *)
Definition unset (b : bitset) (bit : Z) : bitset :=
  let word := word_for_bit bit in
  if Nat.ltb word (length b) then update b word (fun w => clear_bit w (pos_in_word bit)) else b.

(* ke::FindRightmostBit (AMTL, not in the sandbox): index of the lowest bit that is set. *)
Fixpoint lowest_from (fuel : nat) (i w : Z) : Z :=
  match fuel with O => i | S n => if Z.testbit w i then i else lowest_from n (i + 1) w end.
Definition FindRightmostBit (w : Z) : Z := lowest_from 64 0 w.

(* include/utils/bitset.h:65-76; the recursion drops the last word, as pop_back does.  The vector is
   kept reversed while looking at its back. *)
Fixpoint take_rev (r : list Z) : list Z * option Z :=
  match r with
  | [] => ([], None)
  | w :: ws =>
      if w =? 0 then take_rev ws
      else let bit := FindRightmostBit w in
           (clear_bit w bit :: ws, Some (Z.of_nat (length ws) * kBitsPerWord + bit))
  end.
Definition take_any (b : bitset) : bitset * option Z :=
  let '(r, x) := take_rev (rev b) in (rev r, x).

(* include/utils/bitset.h:78-88: the values the callback receives, in order. *)
Fixpoint word_bits (fuel : nat) (w base : Z) : list Z :=
  match fuel with
  | O => []
  | S n => if w =? 0 then []
           else let bit := FindRightmostBit w in base + bit :: word_bits n (clear_bit w bit) base
  end.
Fixpoint for_each_from (i : Z) (ws : list Z) : list Z :=
  match ws with
  | [] => []
  | w :: ws' => word_bits 65 w (i * kBitsPerWord) ++ for_each_from (i + 1) ws'
  end.
Definition for_each (b : bitset) : list Z := for_each_from 0 b.

(* include/utils/bitset.h:90-103: both loops; [i] is the index of the next word of [other]. *)
Fixpoint or_front (b other : list Z) : list Z :=
  match b, other with
  | w :: b', o :: other' => Z.lor w o :: or_front b' other'
  | b, _ => b
  end.
Fixpoint or_back (b : bitset) (i : nat) (rest : list Z) : bitset :=
  match rest with
  | [] => b
  | o :: rest' =>
      let b := if o =? 0 then b else update (grow b (S i)) i (fun _ => o) in
      or_back b (S i) rest'
  end.
Definition or_with (b other : bitset) : bitset :=
  or_back (or_front b other) (length b) (skipn (length b) other).
