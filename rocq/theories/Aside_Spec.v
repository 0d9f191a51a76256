(* What the program needs: the memory of the functions active at one time. *)
From Coq Require Import ZArith List Bool.
From Verif Require Import Aside_Model.
Import ListNotations.
Local Open Scope Z_scope.

(* [f] calls [t]. *)
Definition calls (g : graph) (f t : Z) : Prop := exists l, In (f, l) g /\ In t l.

(* [chain g loc f s]: a chain of calls from [f] on takes [s] cells. *)
Inductive chain (g : graph) (loc : Z -> Z) : Z -> Z -> Prop :=
| ch_one : forall f, chain g loc f (loc f)
| ch_call : forall f t s, calls g f t -> chain g loc t s -> chain g loc f (loc f + s).

(* Every function is listed once. *)
Definition listed_once (g : graph) : Prop := NoDup (map fst g).

(* No function calls itself, be it through others. *)
Definition no_recursion (g : graph) : Prop :=
  exists rank : Z -> nat, forall f t, calls g f t -> (rank t < rank f)%nat.

(* A function is listed only if it calls something. *)
Definition has_calls (g : graph) : Prop := forall f l, In (f, l) g -> l <> [].

(* The first entry of the table is that of [f]. *)
Definition starts_at (g : graph) (f : Z) : Prop := exists l r, g = (f, l) :: r.
