(* What a script relies on about run-time arrays: C05, C06. *)
From Verif Require Import Base Rt_Model.

(* Sizes outermost first: "new int[a][b][c]" is [a; b; c]. *)

(* An index tuple, outermost first, within the sizes. *)
Definition in_range (sizes idx : list Z) : Prop := Forall2 (fun d i => 0 <= i < d) sizes idx.

(* How a script finds element [idx] of the array at [a].  Each level but the last holds either
   the absolute address of the sub-array (direct arrays) or its distance from the entry. *)
Fixpoint locate (direct : bool) (m : memory) (a : Z) (idx : list Z) : Z :=
  match idx with
  | [] => a
  | [i] => a + 4 * i
  | i :: rest =>
    let entry := a + 4 * i in
    locate direct m (if direct then load32 m entry else entry + load32 m entry) rest
  end.
(* The entries read on the way. *)
Fixpoint entries (direct : bool) (m : memory) (a : Z) (idx : list Z) : list Z :=
  match idx with
  | [] | [_] => []
  | i :: rest =>
    let entry := a + 4 * i in
    entry :: entries direct m (if direct then load32 m entry else entry + load32 m entry) rest
  end.

(* Two cells that do not overlap. *)
Definition apart (a b : Z) : Prop := a + 4 <= b \/ b + 4 <= a.

(* Mathematical sizes: number of elements, of indirection entries, and of cells. *)
Fixpoint elements (sizes : list Z) : Z :=
  match sizes with [] => 1 | d :: r => d * elements r end.
Fixpoint indirections (sizes : list Z) : Z :=
  match sizes with [] | [_] => 0 | d :: r => d * (1 + indirections r) end.
Definition total_cells (sizes : list Z) : Z := indirections sizes + elements sizes.

(* A well-formed N-dimensional array at [base] in a block of [n] bytes. *)
Record array_at (direct : bool) (m : memory) (base : Z) (sizes : list Z) (n : Z) : Prop := {
  aa_inside : forall idx, in_range sizes idx ->
    base <= locate direct m base idx /\ locate direct m base idx + 4 <= base + n;
  aa_distinct : forall idx idx', in_range sizes idx -> in_range sizes idx' -> idx <> idx' ->
    apart (locate direct m base idx) (locate direct m base idx');
  aa_entries_inside : forall idx e, in_range sizes idx -> In e (entries direct m base idx) ->
    base <= e /\ e + 4 <= base + n;
  aa_entries : forall idx idx' e, in_range sizes idx -> in_range sizes idx' ->
    In e (entries direct m base idx') -> apart e (locate direct m base idx)
}.

Definition all_zero (direct : bool) (m : memory) (base : Z) (sizes : list Z) : Prop :=
  forall idx, in_range sizes idx -> load32 m (locate direct m base idx) = 0.

(* The [n] cells on top of the stack, topmost first.  A script pushes the sizes outermost first,
   so the sizes are these cells reversed. *)
Fixpoint cells_at (m : memory) (a : Z) (n : nat) : list Z :=
  match n with O => [] | S n' => load32 m a :: cells_at m (a + 4) n' end.
Definition pushed_sizes (s : rt) (n : Z) : list Z := rev (cells_at (mem s) (sp s) (Z.to_nat n)).

(* All sizes are positive. *)
Definition positive (l : list Z) : Prop := Forall (fun d => 0 < d) l.

(* The free region between heap and stack. *)
Definition room (s : rt) : Z := sp s - hp s.

(* When an N-dimensional request is honoured: positive sizes, and the block fits below the stack
   (keeping the 64-byte margin; a one-dimensional request in a heap-scope plugin keeps none). *)
Definition fits (s : rt) (n : Z) : Prop :=
  let sizes := pushed_sizes s n in
  let T := 4 * total_cells sizes in
  positive sizes /\
  (if n =? 1 then hp s + T < sp s /\ (heap_scopes s = false -> hp s + T + 64 <= sp s)
   else hp s + T + 64 < sp s).
