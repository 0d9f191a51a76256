(* What a program that returns properly looks like. C58. *)
From Verif Require Import Base Gen_Model Stm_Model.

(* The returns written in a statement, in order: whether each has a value. *)
Fixpoint returns (s : stmt) : list bool :=
  match s with
  | SReturn e => [match e with Some _ => true | None => false end]
  | SBlock b => returns_l b
  | SIf _ a => returns a
  | SIfElse _ a b => returns a ++ returns b
  | SWhile _ b | SDo b _ | SFor _ _ _ b => returns b
  | SSwitch _ cs => returns_c cs
  | _ => []
  end
with returns_l (b : stmts) : list bool := match b with SNil => [] | SCons s r => returns s ++ returns_l r end
with returns_c (cs : cases) : list bool :=
  match cs with KEnd => [] | KDefault s => returns s | KCase _ s r => returns s ++ returns_c r end.
(* A return without a value, and a later one with one. *)
Definition void_then_value (l : list bool) : Prop :=
  exists i j, (i < j)%nat /\ nth_error l i = Some false /\ nth_error l j = Some true.

(* [b] is a block of the statement. *)
Fixpoint has_block (b : stmts) (s : stmt) : Prop :=
  match s with
  | SBlock b' => b = b' \/ has_block_l b b'
  | SIf _ a => has_block b a
  | SIfElse _ x y => has_block b x \/ has_block b y
  | SWhile _ x | SDo x _ | SFor _ _ _ x => has_block b x
  | SSwitch _ cs => has_block_c b cs
  | _ => False
  end
with has_block_l (b : stmts) (l : stmts) : Prop :=
  match l with SNil => False | SCons s r => has_block b s \/ has_block_l b r end
with has_block_c (b : stmts) (cs : cases) : Prop :=
  match cs with KEnd => False | KDefault s => has_block b s | KCase _ s r => has_block b s \/ has_block_c b r end.
Fixpoint joined (a b : stmts) : stmts := match a with SNil => b | SCons s r => SCons s (joined r b) end.
