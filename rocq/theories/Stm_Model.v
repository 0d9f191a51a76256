(* Code generation for statements: /repo/compiler/code-generator.cpp, with the flow types semantics.cpp computes, over
   the expressions of Gen_Model.  Left out: heap scopes (no statement allocates on the heap), exit, assert, delete,
   and returning arrays or int64. *)
From Verif Require Import Base Interp_Model Fold_Model Gen_Model.
From Verif Require Label_Model.
Notation CaseTable := Label_Model.CaseTable.
Notation CaseEntry := Label_Model.CaseEntry.

(* compiler/parse-node.h: ExprStmt, VarDecl (a local scalar in [slot]), BlockStmt, IfStmt, DoWhileStmt (both tokens),
   ForStmt ([init]: declarations, or one expression), SwitchStmt (the case values are constants; the default comes last
   wherever it was written), BreakStmt, ContinueStmt, ReturnStmt. *)
Inductive stmt :=
| SExpr (e : expr)
| SDecl (slot : Z) (init : option expr)
| SBlock (b : stmts)
| SIf (c : expr) (a : stmt)
| SIfElse (c : expr) (a b : stmt)
| SWhile (c : expr) (body : stmt)
| SDo (body : stmt) (c : expr)
| SFor (init : stmts) (cond advance : option expr) (body : stmt)
| SSwitch (e : expr) (cs : cases)
| SBreak
| SContinue
| SReturn (e : option expr)
with stmts := SNil | SCons (s : stmt) (rest : stmts)
with cases := KEnd | KDefault (s : stmt) | KCase (vs : list Z) (s : stmt) (rest : cases).

(* parse-node.h:100-109. *)
Inductive flow := FNone | FContinue | FBreak | FReturn.
Definition flow_eqb (a b : flow) : bool :=
  match a, b with FNone, FNone | FContinue, FContinue | FBreak, FBreak | FReturn, FReturn => true | _, _ => false end.
Definition terminal (f : flow) : bool := match f with FReturn | FBreak => true | _ => false end.

(* sc_->loop_has_break and loop_has_return after checking a statement (semantics.cpp:2356-2368): loops save and restore
   them (2571-2580, 2626-2637). *)
Fixpoint has_break (s : stmt) : bool :=
  match s with
  | SBreak => true
  | SBlock b => has_break_l b
  | SIf _ a => has_break a
  | SIfElse _ a b => has_break a || has_break b
  | SSwitch _ cs => has_break_c cs
  | _ => false
  end
with has_break_l (b : stmts) : bool := match b with SNil => false | SCons s r => has_break s || has_break_l r end
with has_break_c (cs : cases) : bool :=
  match cs with KEnd => false | KDefault s => has_break s | KCase _ s r => has_break s || has_break_c r end.
Fixpoint has_return (s : stmt) : bool :=
  match s with
  | SReturn _ => true
  | SBlock b => has_return_l b
  | SIf _ a => has_return a
  | SIfElse _ a b => has_return a || has_return b
  | SSwitch _ cs => has_return_c cs
  | _ => false
  end
with has_return_l (b : stmts) : bool := match b with SNil => false | SCons s r => has_return s || has_return_l r end
with has_return_c (cs : cases) : bool :=
  match cs with KEnd => false | KDefault s => has_return s | KCase _ s r => has_return s || has_return_c r end.
(* sc_->loop_has_continue: only for loops save it (2627), so a continue in a while loop also counts for a for loop
   around it. *)
Fixpoint has_continue (s : stmt) : bool :=
  match s with
  | SContinue => true
  | SBlock b => has_continue_l b
  | SIf _ a => has_continue a
  | SIfElse _ a b => has_continue a || has_continue b
  | SWhile _ b => has_continue b
  | SDo b _ => has_continue b
  | SSwitch _ cs => has_continue_c cs
  | _ => false
  end
with has_continue_l (b : stmts) : bool := match b with SNil => false | SCons s r => has_continue s || has_continue_l r end
with has_continue_c (cs : cases) : bool :=
  match cs with KEnd => false | KDefault s => has_continue s | KCase _ s r => has_continue s || has_continue_c r end.

(* semantics.cpp:2584-2585, 2639-2640. *)
Definition never_taken (c : option expr) : bool :=
  match c with Some e => match konst e with Some v => v =? 0 | None => false end | None => false end.
Definition always_taken (c : option expr) : bool :=
  match c with Some e => match konst e with Some v => negb (v =? 0) | None => false end | None => true end.

(* Stmt::flow_type: CheckIfStmt 2229-2248, CheckBlockStmt 2330-2354, CheckDoWhileStmt 2587-2594, CheckForStmt 2650-2657,
   CheckSwitchStmt 2674-2717; parse-node.h:241, 253, 1310. *)
Fixpoint flow_of (s : stmt) : flow :=
  match s with
  | SBreak => FBreak
  | SContinue => FContinue
  | SReturn _ => FReturn
  | SBlock b => flow_l b
  | SIfElse _ a b => if flow_eqb (flow_of a) (flow_of b) then flow_of a else FNone
  | SWhile c b => if always_taken (Some c) && negb (has_break b) && has_return b then FReturn else FNone
  | SDo b c => if always_taken (Some c) && negb (has_break b) && has_return b then FReturn else FNone
  | SFor _ c _ b => if always_taken c && negb (has_break b) && has_return b then FReturn else FNone
  | SSwitch _ cs => match flow_c cs None with Some f => f | None => FNone end
  | _ => FNone
  end
with flow_l (b : stmts) : flow :=
  match b with
  | SNil => FNone
  | SCons s r => match flow_of s with FNone => flow_l r | f => f end
  end
with flow_c (cs : cases) (acc : option flow) : option flow :=
  let update other := match acc with Some f => Some (if flow_eqb f other then f else FNone) | None => Some other end in
  match cs with
  | KEnd => update FNone
  | KDefault s => update (flow_of s)
  | KCase _ s r => flow_c r (update (flow_of s))
  end.

(* Whether the place right after the code of a statement is right after a BREAK instruction (last_break_op_,
   code-generator.cpp:2005-2011), EmitBreak having been called at its start.  Every expression and test emits a cell. *)
Definition is_none (f : flow) : bool := flow_eqb f FNone.
(* continue_to.used() at code-generator.cpp:1746: a continue of this very loop was emitted. *)
Fixpoint continues (s : stmt) : bool :=
  match s with
  | SContinue => true
  | SBlock b => continues_l b
  | SIf _ a => continues a
  | SIfElse _ a b => continues a || continues b
  | SSwitch _ cs => continues_c cs
  | _ => false
  end
with continues_l (b : stmts) : bool := match b with SNil => false | SCons s r => continues s || continues_l r end
with continues_c (cs : cases) : bool :=
  match cs with KEnd => false | KDefault s => continues s | KCase _ s r => continues s || continues_c r end.
Definition do_tests (b : stmt) : bool := negb (terminal (flow_of b)) || continues b.
(* ForStmt::has_continue (semantics.cpp:2636-2648) and body_always_exits (code-generator.cpp:1822-1825). *)
Definition for_continues (c : option expr) (b : stmt) : bool :=
  has_continue b || negb (terminal (flow_of b)) || negb (always_taken c).
Definition for_exits (c : option expr) (b : stmt) : bool := terminal (flow_of b) && negb (for_continues c b).
Fixpoint ends_in_break (s : stmt) : bool :=
  match s with
  | SBlock b => ends_l true b
  | SIf _ a => ends_in_break a
  | SIfElse _ _ b => ends_in_break b
  | SWhile _ b => if is_none (flow_of b) then false else ends_in_break b
  | SDo b _ => if do_tests b then false else ends_in_break b
  | SFor init c _ b => if never_taken c then ends_l true init else if for_exits c b then ends_in_break b else false
  | _ => false
  end
with ends_l (lb : bool) (b : stmts) : bool := match b with SNil => lb | SCons s r => ends_l (ends_in_break s) r end.

(* How many labels a statement may create. *)
Definition nlo (e : option expr) : nat := match e with Some e => nl e | None => 0 end.
Fixpoint ns (s : stmt) : nat :=
  match s with
  | SExpr e => nl e
  | SDecl _ i => nlo i
  | SBlock b => nsl b
  | SIf c a => 1 + nl c + ns a
  | SIfElse c a b => 2 + nl c + ns a + ns b
  | SWhile c b => 2 + nl c + ns b
  | SDo b c => 3 + ns b + nl c
  | SFor i c a b => 3 + nsl i + nlo c + ns b + nlo a
  | SSwitch e cs => 3 + nl e + nsc cs
  | SBreak | SContinue => 0
  | SReturn e => nlo e
  end
with nsl (b : stmts) : nat := match b with SNil => 0 | SCons s r => ns s + nsl r end
with nsc (cs : cases) : nat :=
  match cs with KEnd => 0 | KDefault s => ns s | KCase _ s r => 1 + ns s + nsc r end.

(* The case table: std::map<cell, Label> (code-generator.cpp:1895, 1906); emplace keeps an entry already there. *)
Fixpoint emplace (v : Z) (l : nat) (t : list (Z * nat)) : list (Z * nat) :=
  match t with
  | [] => [(v, l)]
  | (w, l') :: r => if v <? w then (v, l) :: t else if v =? w then t else (w, l') :: emplace v l r
  end.
Fixpoint case_table (cs : cases) (n : nat) (t : list (Z * nat)) : list (Z * nat) :=
  match cs with
  | KCase vs s r => case_table r (n + 1 + ns s) (fold_left (fun t v => emplace v n t) vs t)
  | _ => t
  end.
Fixpoint has_default (cs : cases) : bool :=
  match cs with KEnd => false | KDefault _ => true | KCase _ _ r => has_default r end.

Definition BREAK_OP : aop := Emit [137].
Definition JUMP_TO (l : nat) : aop := EmitLabel 51 l.

Section Gen.
Variable glab : nat -> nat.
Variable ga : nat -> Z.
Notation Gen := (gen glab ga).
Definition geno (e : option expr) (n : nat) : list aop := match e with Some e => Gen Value e n | None => [] end.

(* EmitStmt (code-generator.cpp:139-246): [bt] and [ct] are the labels break and continue jump to; [lb]: the code so far
   ends in a BREAK instruction. *)
Fixpoint gs (bt ct : nat) (s : stmt) (n : nat) (lb : bool) {struct s} : list aop :=
  (if lb then [] else [BREAK_OP]) ++
  match s with
  | SExpr e => Gen Value e n
  | SDecl slot init =>                                                       (* 336-374 *)
      match init with
      | Some e => match konst e with Some v => [Emit [19; slot; v]] | None => Gen Value e n ++ [Emit [17; slot]] end
      | None => [Emit [92; slot]]
      end
  | SBlock b => gl bt ct b n true
  | SIf c a => Gen (Test false n) c (n + 1) ++ gs bt ct a (n + 1 + nl c) false ++ [Bind n]       (* 1446-1464 *)
  | SIfElse c a b =>
      let over := is_none (flow_of a) in
      Gen (Test false n) c (n + 2) ++ gs bt ct a (n + 2 + nl c) false ++ (if over then [JUMP_TO (n + 1)] else []) ++
      [Bind n] ++ gs bt ct b (n + 2 + nl c + ns a) (if over then false else ends_in_break a) ++
      (if over then [Bind (n + 1)] else [])
  | SWhile c b =>                                                            (* 1757-1786 *)
      [Bind (n + 1)] ++ Gen (Test false n) c (n + 2) ++ gs n (n + 1) b (n + 2 + nl c) false ++
      (if is_none (flow_of b) then [JUMP_TO (n + 1)] else []) ++ [Bind n]
  | SDo b c =>                                                               (* 1736-1756 *)
      [Bind (n + 2)] ++ gs n (n + 1) b (n + 3) true ++
      (if do_tests b then [Bind (n + 1)] ++ Gen (Test true (n + 2)) c (n + 3 + ns b) else []) ++ [Bind n]
  | SFor init c a b =>                                                       (* 1807-1882 *)
      gl bt ct init (n + 3) true ++
      (if never_taken c then []
       else
         let test := match c with Some c => if always_taken (Some c) then [] else Gen (Test false n) c (n + 3 + nsl init) | None => [] end in
         let body := gs n (n + 1) b (n + 3 + nsl init + nlo c) (if always_taken c then ends_l true init else false) in
         match a with
         | Some a =>
             [Bind (n + 2)] ++ test ++ body ++
             (if for_continues c b then [Bind (n + 1)] ++ Gen Value a (n + 3 + nsl init + nlo c + ns b) else []) ++
             (if for_exits c b then [] else [JUMP_TO (n + 2)])
         | None => [Bind (n + 1)] ++ test ++ body ++ (if for_exits c b then [] else [JUMP_TO (n + 1)])
         end) ++ [Bind n]
  | SSwitch e cs =>                                                          (* 1884-1935 *)
      let t := case_table cs (n + 3 + nl e) [] in
      Gen Value e (n + 3) ++ [EmitLabel 129 (n + 1)] ++ gc bt ct n (n + 2) cs (n + 3 + nl e) false ++
      [Bind (n + 1); CaseTable 130 (Z.of_nat (length t)) (if has_default cs then n + 2 else n)] ++
      map (fun c => CaseEntry (fst c) (snd c)) t ++ [Bind n]
  | SBreak => [JUMP_TO bt]                                                   (* 1789-1805 *)
  | SContinue => [JUMP_TO ct]
  | SReturn e => (match e with Some e => Gen Value e n | None => [Emit (const_pri 0)] end) ++ [Emit [48]]   (* 1517-1537 *)
  end
with gl (bt ct : nat) (b : stmts) (n : nat) (lb : bool) {struct b} : list aop :=
  match b with
  | SNil => []
  | SCons s r => gs bt ct s n lb ++ gl bt ct r (n + ns s) (ends_in_break s)
  end
(* The cases of a switch: [x] is the exit label, [d] the default's. *)
with gc (bt ct x d : nat) (cs : cases) (n : nat) (lb : bool) {struct cs} : list aop :=
  match cs with
  | KEnd => []
  | KDefault s => [Bind d] ++ gs bt ct s n lb ++ (if is_none (flow_of s) then [JUMP_TO x] else [])
  | KCase vs s r =>
      [Bind n] ++ gs bt ct s (n + 1) lb ++ (if is_none (flow_of s) then [JUMP_TO x] else []) ++
      gc bt ct x d r (n + 1 + ns s) (if is_none (flow_of s) then false else ends_in_break s)
  end.

(* EmitFunctionDecl (code-generator.cpp:1955-1985), from PROC to ENDPROC. *)
Definition gfun (body : stmt) (n : nat) : list aop :=
  [Emit [46]; BREAK_OP] ++ gs 0 0 body n true ++
  (if flow_eqb (flow_of body) FReturn then [] else [Emit (const_pri 0); Emit [48]]) ++ [Emit [166]].
End Gen.

(* What semantic analysis lets through: expressions as in [accepted]; break and continue inside loops only
   (parser.cpp), return anywhere; case values are cells, each once (semantics.cpp:2684-2704). *)
Definition accepted_o (e : option expr) : Prop := match e with Some e => accepted e | None => True end.
Fixpoint simple_l (b : stmts) : Prop :=
  match b with
  | SNil => True
  | SCons s r => match s with SExpr _ | SDecl _ _ => True | _ => False end /\ simple_l r
  end.
Fixpoint case_values (cs : cases) : list Z := match cs with KCase vs _ r => vs ++ case_values r | _ => [] end.
Fixpoint accepted_s (loop : bool) (s : stmt) : Prop :=
  match s with
  | SExpr e => accepted e
  | SDecl slot i => is_i32 slot /\ accepted_o i
  | SBlock b => accepted_sl loop b
  | SIf c a => accepted c /\ accepted_s loop a
  | SIfElse c a b => accepted c /\ accepted_s loop a /\ accepted_s loop b
  | SWhile c b => accepted c /\ accepted_s true b
  | SDo b c => accepted c /\ accepted_s true b
  | SFor i c a b => accepted_sl false i /\ simple_l i /\ accepted_o c /\ accepted_o a /\ accepted_s true b
  | SSwitch e cs => accepted e /\ accepted_sc loop cs /\ NoDup (case_values cs) /\ Forall is_i32 (case_values cs)
  | SBreak | SContinue => loop = true
  | SReturn e => accepted_o e
  end
with accepted_sl (loop : bool) (b : stmts) : Prop :=
  match b with SNil => True | SCons s r => accepted_s loop s /\ accepted_sl loop r end
with accepted_sc (loop : bool) (cs : cases) : Prop :=
  match cs with KEnd => True | KDefault s => accepted_s loop s | KCase _ s r => accepted_s loop s /\ accepted_sc loop r end.
