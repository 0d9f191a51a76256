(* The heap a function takes and gives back: which statements own heap scopes (compiler/semantics.cpp: flow types,
   NeedsHeapAlloc, AssignHeapOwnership) and the HEAP_SAVE, HEAP_RESTORE and allocating instructions met along the paths
   of the code the statements become (compiler/code-generator.cpp:139-246, 1447-1465, 1723-1930, 2194-2212).  That the
   jumps lead where the statements say is C29 and not modelled again: a path is a path of the statements. *)
From Verif Require Import Base Rt_Model Rt_Spec.

(* A condition of a loop: the cells its temporaries take on the heap, and its value if it is constant. *)
Record cond := mkCond { c_cells : Z; c_const : option bool }.
Inductive stmt :=
| Plain (k : Z)                                  (* a declaration or expression that takes k cells of heap *)
| Block (l : list stmt)
| If (k : Z) (t : stmt) | IfElse (k : Z) (t e : stmt)
| While (c : cond) (b : stmt) | Do (b : stmt) (c : cond)
| For (init : Z) (c : option cond) (adv : Z) (b : stmt)
| Switch (k : Z) (cases : list stmt) (dflt : bool)      (* the default case is one of them *)
| Break | Continue | Return (k : Z).

(* ---- Flow types (semantics.cpp:76-88, 2241-2247, 2331-2355, 2573-2595, 2627-2657, 2681-2719; parse-node.h) ---- *)
Inductive flowt := FNone | FBreak | FContinue | FReturn.
Definition flow_eqb (a b : flowt) : bool :=
  match a, b with FNone, FNone | FBreak, FBreak | FContinue, FContinue | FReturn, FReturn => true | _, _ => false end.
(* sc_->loop_has_break and loop_has_return as the body leaves them; loops save and restore them. *)
Fixpoint breaks (s : stmt) : bool :=
  match s with
  | Break => true
  | Block l | Switch _ l _ => existsb breaks l
  | If _ t => breaks t | IfElse _ t e => breaks t || breaks e
  | _ => false
  end.
Fixpoint conts (s : stmt) : bool :=
  match s with
  | Continue => true
  | Block l | Switch _ l _ => existsb conts l
  | If _ t => conts t | IfElse _ t e => conts t || conts e
  | _ => false
  end.
Fixpoint rets (s : stmt) : bool :=
  match s with
  | Return _ => true
  | Block l | Switch _ l _ => existsb rets l
  | If _ t => rets t | IfElse _ t e => rets t || rets e
  | _ => false
  end.
Definition always (c : option cond) : bool :=
  match c with None => true | Some c => match c_const c with Some true => true | _ => false end end.
Definition loop_flow (c : option cond) (b : stmt) : flowt := if always c && negb (breaks b) && rets b then FReturn else FNone.
Fixpoint first_flow (fs : list flowt) : flowt := match fs with [] => FNone | FNone :: r => first_flow r | f :: _ => f end.
Definition same_flow (fs : list flowt) : flowt :=
  match fs with [] => FNone | f :: r => if forallb (flow_eqb f) r then f else FNone end.
Fixpoint flow (s : stmt) : flowt :=
  match s with
  | Plain _ => FNone
  | Block l => first_flow (map flow l)
  | If _ _ => FNone
  | IfElse _ t e => if flow_eqb (flow t) (flow e) then flow t else FNone
  | While c b | Do b c => loop_flow (Some c) b
  | For _ c _ b => loop_flow c b
  | Switch _ l dflt => if dflt then same_flow (map flow l) else FNone
  | Break => FBreak | Continue => FContinue | Return _ => FReturn
  end.

(* ---- Ownership (semantics.cpp:90-101, 185, 2331, 2353, 2557-2562, 2613-2616, 2890-2900) ---- *)
(* An allocation in the statement that nothing inside it owns. *)
Fixpoint pending (s : stmt) : bool :=
  match s with
  | Plain k | Return k => 0 <? k
  | If k _ | IfElse k _ _ => 0 <? k
  | For init c _ _ => (0 <? init) || match c with Some c => 0 <? c_cells c | None => false end
  | Switch k l _ => (0 <? k) || existsb pending l
  | _ => false
  end.
(* tree_has_heap_allocs; [ctx] is STMT_OWNS_HEAP: branches of if, bodies of loops and functions *)
Definition owned (ctx : bool) (s : stmt) : bool :=
  match s with Block l => existsb pending l | _ => ctx && pending s end.
(* EnterHeapScope, code-generator.cpp:2194-2200 *)
Definition needs_restore (s : stmt) : bool := negb (flow_eqb (flow s) FReturn).

(* ---- Paths ---- *)
Inductive out := Nrm | Brk | Cnt | Ret | Stop.    (* Stop: somewhere on the way *)
Inductive task :=
| TStmt (ctx : bool) (s : stmt)        (* EmitStmt *)
| TBody (s : stmt)                     (* its switch *)
| TList (l : list stmt)
| TWhile (c : cond) (b : stmt) | TDo (b : stmt) (c : cond) | TFor (c : option cond) (adv : Z) (b : stmt).
Definition alloc (k : Z) : list op := if 0 <? k then [OHeap (4 * k)] else [].
(* A scope of its own around a condition or the third part of for, 1744-1754, 1764-1774, 1851-1857 *)
Definition scoped (k : Z) : list op := if 0 <? k then [OScopeIn; OHeap (4 * k); OScopeOut] else [].
Definition save (r : bool) : list op := if r then [OScopeIn] else [].
Definition restore (r : bool) : list op := if r then [OScopeOut] else [].
(* EmitLoopControl, 1794-1800: [sc] the scopes, innermost first, [lp] how many were open at the loop *)
Definition outs (sc : list bool) (lp : nat) : list op := flat_map restore (firstn (length sc - lp) sc).
Definition goes_on (o : out) : bool := match o with Nrm | Cnt => true | _ => false end.
Definition left_by (o : out) : out := match o with Brk => Nrm | o => o end.
Definition may (c : option cond) (v : bool) : bool :=
  match c with None => v | Some c => match c_const c with None => true | Some w => eqb w v end end.
Definition for_cells (c : option cond) : Z := match c with Some c => c_cells c | None => 0 end.

Inductive path : list bool -> nat -> task -> list op -> out -> Prop :=
| p_stop sc lp t : path sc lp t [] Stop
| p_own sc lp ctx s e o : owned ctx s = true -> path (needs_restore s :: sc) lp (TBody s) e o ->
    path sc lp (TStmt ctx s)
      (save (needs_restore s) ++ e ++ match o with Nrm => restore (needs_restore s) | _ => [] end) o
| p_free sc lp ctx s e o : owned ctx s = false -> path sc lp (TBody s) e o -> path sc lp (TStmt ctx s) e o
| p_plain sc lp k : path sc lp (TBody (Plain k)) (alloc k) Nrm
| p_block sc lp l e o : path sc lp (TList l) e o -> path sc lp (TBody (Block l)) e o
| p_nil sc lp : path sc lp (TList []) [] Nrm
| p_next sc lp s l e e' o : path sc lp (TStmt false s) e Nrm -> path sc lp (TList l) e' o -> path sc lp (TList (s :: l)) (e ++ e') o
| p_leave sc lp s l e o : path sc lp (TStmt false s) e o -> o <> Nrm -> path sc lp (TList (s :: l)) e o
| p_if sc lp k t e o : path sc lp (TStmt true t) e o -> path sc lp (TBody (If k t)) (alloc k ++ e) o
| p_if_not sc lp k t : path sc lp (TBody (If k t)) (alloc k) Nrm
| p_then sc lp k t f e o : path sc lp (TStmt true t) e o -> path sc lp (TBody (IfElse k t f)) (alloc k ++ e) o
| p_else sc lp k t f e o : path sc lp (TStmt true f) e o -> path sc lp (TBody (IfElse k t f)) (alloc k ++ e) o
| p_case sc lp k l d s e o : In s l -> path sc lp (TStmt false s) e o -> path sc lp (TBody (Switch k l d)) (alloc k ++ e) o
| p_no_case sc lp k l : path sc lp (TBody (Switch k l false)) (alloc k) Nrm
| p_break sc lp : path sc lp (TBody Break) (outs sc lp) Brk
| p_continue sc lp : path sc lp (TBody Continue) (outs sc lp) Cnt
| p_return sc lp k : path sc lp (TBody (Return k)) (alloc k) Ret
| p_while sc lp c b e o : path sc lp (TWhile c b) e o -> path sc lp (TBody (While c b)) e o
| p_do sc lp c b e o : path sc lp (TDo b c) e o -> path sc lp (TBody (Do b c)) e o
| p_for sc lp i c a b e o : path sc lp (TFor c a b) e o -> path sc lp (TBody (For i c a b)) (alloc i ++ e) o
| w_exit sc lp c b : may (Some c) false = true -> path sc lp (TWhile c b) (scoped (c_cells c)) Nrm
| w_round sc lp c b e o e' o' : may (Some c) true = true -> path sc (length sc) (TStmt true b) e o -> goes_on o = true ->
    path sc lp (TWhile c b) e' o' -> path sc lp (TWhile c b) (scoped (c_cells c) ++ e ++ e') o'
| w_leave sc lp c b e o : may (Some c) true = true -> path sc (length sc) (TStmt true b) e o -> goes_on o = false ->
    path sc lp (TWhile c b) (scoped (c_cells c) ++ e) (left_by o)
| d_exit sc lp c b e o : path sc (length sc) (TStmt true b) e o -> goes_on o = true -> may (Some c) false = true ->
    path sc lp (TDo b c) (e ++ scoped (c_cells c)) Nrm
| d_round sc lp c b e o e' o' : path sc (length sc) (TStmt true b) e o -> goes_on o = true -> may (Some c) true = true ->
    path sc lp (TDo b c) e' o' -> path sc lp (TDo b c) (e ++ scoped (c_cells c) ++ e') o'
| d_leave sc lp c b e o : path sc (length sc) (TStmt true b) e o -> goes_on o = false -> path sc lp (TDo b c) e (left_by o)
| f_exit sc lp c a b : may c false = true -> path sc lp (TFor c a b) (alloc (for_cells c)) Nrm
| f_round sc lp c a b e o e' o' : may c true = true -> path sc (length sc) (TStmt true b) e o -> goes_on o = true ->
    path sc lp (TFor c a b) e' o' -> path sc lp (TFor c a b) (alloc (for_cells c) ++ e ++ scoped a ++ e') o'
| f_leave sc lp c a b e o : may c true = true -> path sc (length sc) (TStmt true b) e o -> goes_on o = false ->
    path sc lp (TFor c a b) (alloc (for_cells c) ++ e) (left_by o).
