(* Reachability. *)
From Coq Require Import ZArith List Bool.
From Verif Require Import Liv_Model.
Import ListNotations.
Local Open Scope Z_scope.

(* The body of function [n] uses [m]. *)
Definition uses (p : program) (n m : Z) : Prop :=
  exists f l, In f p /\ f_id f = n /\ f_body f = Some l /\ In m l.

(* [m] can come to be used when [n] is. *)
Inductive reaches (p : program) : Z -> Z -> Prop :=
| r_self : forall n, reaches p n n
| r_step : forall n m k, uses p n m -> reaches p m k -> reaches p n k.

(* A host can enter the program at its public functions. *)
Definition entry (p : program) (n : Z) : Prop :=
  exists f l, In f p /\ f_id f = n /\ f_public f = true /\ f_body f = Some l.
Definition needed (p : program) (n : Z) : Prop := exists r, entry p r /\ reaches p r n.

(* Functions written to be there in case. *)
Definition in_case (p : program) (n : Z) : Prop :=
  exists f l, In f p /\ f_id f = n /\ (f_member f = true \/ f_stock f = true) /\ f_body f = Some l.
Definition kept (p : program) (n : Z) : Prop := exists r, in_case p r /\ reaches p r n.

(* No two functions have the same number. *)
Definition distinct (p : program) : Prop := NoDup (map f_id p).

(* Steps that suffice for the traversal: one for each function that is used or
   defined, and one more. *)
Definition mentioned (p : program) : list Z :=
  map f_id p ++ flat_map (fun f => match f_body f with Some l => l | None => nil end) p.
Definition enough (p : program) : nat := S (length (mentioned p)).
