(* How much heap a function should need: C45. *)
From Verif Require Import Base Rt_Model Rt_Spec Hs_Model.

(* Bytes for everything a statement can have open at a time, each part counted once however often it is run; a scope
   costs one cell. *)
Definition bytes (k : Z) : Z := Z.max 0 (4 * k).
Definition sum (l : list Z) : Z := fold_right Z.add 0 l.
Fixpoint need (s : stmt) : Z :=
  4 + match s with
      | Plain k | Return k => bytes k
      | Block l => sum (map need l)
      | If k t => bytes k + need t
      | IfElse k t e => bytes k + need t + need e
      | While c b | Do b c => 4 + bytes (c_cells c) + need b
      | For i c a b => bytes i + bytes (for_cells c) + 4 + bytes a + need b
      | Switch k l _ => bytes k + sum (map need l)
      | Break | Continue => 0
      end.

(* What the theorem leaves out; see the refutations.  A statement that owns heap and is taken to end in return is not
   left by break or continue, and conditions of for take no heap. *)
Definition tight (ctx : bool) (s : stmt) : bool := negb (owned ctx s && negb (needs_restore s) && (breaks s || conts s)).
Fixpoint tame (ctx : bool) (s : stmt) : bool :=
  tight ctx s &&
  match s with
  | Block l => forallb (tame false) l
  | Switch _ l _ => forallb (tame false) l
  | If _ t => tame true t
  | IfElse _ t e => tame true t && tame true e
  | While _ b | Do b _ => tame true b
  | For _ c _ b => (for_cells c <=? 0) && tame true b
  | _ => true
  end.

(* A function running in the VM from state [s] with [g] open: its own heap operations in the order of the path, and
   anything else that leaves the heap and its scopes as they were, such as the stack instructions and complete calls. *)
Inductive along (s : rt) (g : list mark) : list op -> rt -> list mark -> Prop :=
| a_start : along s g [] s g
| a_heap e s' g' o s'' : along s g e s' g' -> perform o s' = Ok tt s'' -> along s g (e ++ [o]) s'' (after s' g' o)
| a_else e s' g' s'' : along s g e s' g' -> history s'' g' -> same_plugin s' s'' -> hp s'' = hp s' -> hp_scope s'' = hp_scope s' ->
    along s g e s'' g'.

(* ---- Functions that leak ---- *)
Definition test : cond := mkCond 0 None.
Definition forever : cond := mkCond 0 (Some true).
(* while (true) { int a[100]; if (p()) continue; return; } *)
Definition bad_continue : stmt := Block [While forever (Block [Plain 100; If 0 Continue; Return 0])].
(* while (p()) { while (true) { int a[100]; if (q()) break; return; } } *)
Definition bad_break : stmt := Block [While test (While forever (Block [Plain 100; If 0 Break; Return 0]))].
(* for (; name(i)[0] != 0; i++) {} with name returning char[256] *)
Definition bad_for : stmt := Block [For 0 (Some (mkCond 64 None)) 0 (Block [])].
