(* What an initialiser means, and how a script reads an array: C31. *)
From Verif Require Import Base Small_Model Ai_Model.

(* The memory holds the cells [cs] from address [a] on. *)
Definition stored (m : memory) (a : Z) (cs : list Z) : Prop :=
  forall k v, nth_error cs k = Some v -> load32 m (a + 4 * Z.of_nat k) = wrap32 v.

(* Indexing all ranks but the last: each cell holds the address of what is below it. *)
Fixpoint row (m : memory) (a : Z) (idx : list Z) : Z :=
  match idx with [] => a | i :: r => row m (load32 m (a + 4 * i)) r end.
Definition within (dims idx : list Z) : Prop := Forall2 (fun n i => 0 <= i < n) dims idx.

(* The part of an initialiser written for a row, if any. *)
Fixpoint given (i : option init) (idx : list Z) : option init :=
  match idx with
  | [] => i
  | k :: r => given (match i with Some (IList l _) => nth_error l (Z.to_nat k) | _ => None end) r
  end.
Definition number (i : option init) : Z := match i with Some (INum v) | Some (INum64 v) => v | _ => 0 end.
(* Element [k] of a row of cells: the [k]th value; beyond the values given zero, or with an ellipsis the last value,
   going on with the difference of the last two if there are two. *)
Definition cell_at (i : option init) (k : Z) : Z :=
  match i with
  | Some (IList l ellipses) =>
      let n := Z.of_nat (length l) in
      let item := fun j => number (nth_error l (Z.to_nat j)) in
      if k <? n then item k
      else if ellipses then item (n - 1) + (k - n + 1) * (if 2 <=? n then item (n - 1) - item (n - 2) else 0)
      else 0
  | _ => 0
  end.
(* Element [k] of a row of characters written as a string. *)
Definition char_at (i : option init) (k : Z) : Z :=
  match i with Some (IStr s) => nth (Z.to_nat k) s 0 | _ => 0 end.
(* Field [f] of element [k] of a row of structs. *)
Definition field_of (i : option init) (f : nat) : option init :=
  match i with Some (IList l _) => nth_error l f | _ => None end.
Definition element (i : option init) (k : Z) : option init :=
  match i with Some (IList l _) => nth_error l (Z.to_nat k) | _ => None end.
(* Where field [f] begins. *)
Definition offset (fs : list field) (f : nat) : Z := struct_cells (firstn f fs).

(* How far a row goes: its declared size, or as far as what is written for it. *)
Definition reaches (n : Z) (i : option init) (k : Z) : Prop :=
  0 <= k /\ (k < n \/ n = 0 /\ match i with
                               | Some (IList l _) => k < Z.of_nat (length l)
                               | Some (IStr s) => k <= Z.of_nat (length s)
                               | _ => False
                               end).
(* Something holds of what is written for every row. *)
Definition every_row (outer : list Z) (i : option init) (P : option init -> Prop) : Prop :=
  forall idx, within outer idx -> P (given i idx).

(* What a script finds in an array of ranks [outer ++ [n]] at [a]. *)
Definition holds_cells (outer : list Z) (n : Z) (i : option init) (m : memory) (a : Z) : Prop :=
  forall idx k, within outer idx -> reaches n (given i idx) k ->
  load32 m (row m a idx + 4 * k) = wrap32 (cell_at (given i idx) k).
Definition holds_chars (outer : list Z) (n : Z) (i : option init) (m : memory) (a : Z) : Prop :=
  forall idx k, within outer idx -> reaches n (given i idx) k -> m (row m a idx + k) = char_at (given i idx) k.
Definition holds_int64s (outer : list Z) (n : Z) (i : option init) (m : memory) (a : Z) : Prop :=
  forall idx k, within outer idx -> reaches n (given i idx) k ->
  load64 m (row m a idx + 8 * k) = wrap64 (number (element (given i idx) k)).
(* A field at [a]. *)
Definition holds_field (f : field) (i : option init) (m : memory) (a : Z) : Prop :=
  match f with
  | FCell => load32 m a = wrap32 (number i)
  | FCells n => forall k, 0 <= k < n -> load32 m (a + 4 * k) = wrap32 (cell_at i k)
  | FChars n => forall k, 0 <= k < n -> m (a + k) = char_at i k
  end.
Definition holds_struct (fs : list field) (i : option init) (m : memory) (a : Z) : Prop :=
  forall f fl, nth_error fs f = Some fl -> holds_field fl (field_of i f) m (a + 4 * offset fs f).
Definition holds_structs (fs : list field) (outer : list Z) (n : Z) (i : option init) (m : memory) (a : Z) : Prop :=
  forall idx k, within outer idx -> reaches n (given i idx) k ->
  holds_struct fs (element (given i idx) k) m (row m a idx + 4 * (k * struct_cells fs)).
Definition holds (e : elem) : list Z -> Z -> option init -> memory -> Z -> Prop :=
  match e with ECell _ => holds_cells | EChar => holds_chars | EInt64 => holds_int64s | EStruct fs => holds_structs fs end.

(* What the theorems about other arrays than of cells ask of each row beyond being accepted; see the refutations. *)
Definition plain_field (f : field) (i : init) : Prop :=
  match f, i with FChars _, IStr s => Forall is_byte s | FChars _, _ => False | _, _ => True end.
Definition plain_struct (fs : list field) (i : init) : Prop :=
  match i with IList l _ => forall f fl x, nth_error fs f = Some fl -> nth_error l f = Some x -> plain_field fl x | _ => True end.
Definition sized (fs : list field) : Prop := Forall (fun f => match f with FCell => True | FCells n | FChars n => 0 < n end) fs.
Definition plain (e : elem) (n : Z) (i : option init) : Prop :=
  match e with
  | ECell _ => True
  | EChar => match i with Some (IStr s) => Forall is_byte s | Some (IList _ _) => False | _ => True end
  | EInt64 => match i with Some (IList l _) => n = 0 \/ n = Z.of_nat (length l) | _ => False end
  | EStruct fs => sized fs /\ match i with
      | Some (IList l ellipses) => ellipses = false /\ (n = 0 \/ Z.of_nat (length l) <= n) /\ Forall (plain_struct fs) l
      | _ => True
      end
  end.
(* The memory holds bytes; asked where characters are read. *)
Definition bytes_in (m : memory) : Prop := forall x, is_byte (m x).
Definition bytes_if (e : elem) (m : memory) : Prop := match e with EChar | EStruct _ => bytes_in m | _ => True end.
