(* What an emission history should leave in the buffer. *)
From Verif Require Import Base Label_Model.

(* The cells a history emits, symbolically. *)
Inductive item : Type := Word (v : Z) | Ref (l : nat) | DataRef (d : nat).
Definition items_of (o : aop) : list item :=
  match o with
  | Emit cs => map Word cs
  | EmitLabel op l => [Word op; Ref l]
  | EmitData op d => [Word op; DataRef d]
  | CaseTable op n l => [Word op; Word n; Ref l]
  | CaseEntry v l => [Word v; Ref l]
  | SysReqN op l n => [Word op; Ref l; Word n]
  | _ => []
  end.
Definition items (h : list aop) : list item := flat_map items_of h.

(* Where a label was placed: Bind places it after everything emitted so far. *)
Fixpoint placed (emitted : nat) (h : list aop) (l : nat) : option Z :=
  match h with
  | [] => None
  | o :: h' =>
      let rest := placed (emitted + length (items_of o)) h' l in
      match o with
      | Bind l' => if Nat.eqb l l' then Some (4 * Z.of_nat emitted) else rest
      | BindTo l' v => if Nat.eqb l l' then Some v else rest
      | _ => rest
      end
  end.
(* The value given to a data label. *)
Fixpoint valued (h : list aop) (d : nat) : option Z :=
  match h with
  | [] => None
  | BindData d' v :: h' => if Nat.eqb d d' then Some v else valued h' d
  | _ :: h' => valued h' d
  end.

(* How the compiler may use the interface: a label is placed at most once, at a value that fits; a data
   label is used once and then given a value once; the code stays below a gigabyte. *)
Definition allowed (before : list aop) (o : aop) : Prop :=
  match o with
  | Bind l => placed 0 before l = None
  | BindTo l v => placed 0 before l = None /\ 0 <= v <= INT_MAX / 2
  | EmitData _ d => ~ In (DataRef d) (items before)
  | BindData d _ => In (DataRef d) (items before) /\ valued before d = None
  | _ => True
  end.
Definition well_used (h : list aop) : Prop :=
  (forall before o after, h = before ++ o :: after -> allowed before o) /\
  4 * Z.of_nat (length (items h)) <= INT_MAX / 2.

(* The final contents of a cell. *)
Definition right_cell (h : list aop) (e : item) (v : Z) : Prop :=
  match e with
  | Word w => v = wrap32 w
  | Ref l => match placed 0 h l with Some a => v = wrap32 a | None => True end
  | DataRef d => v = wrap32 (match valued h d with Some w => w | None => 0xb0b0b0b0 end)
  end.
