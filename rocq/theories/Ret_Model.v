(* What semantic analysis says about how functions return: /repo/compiler/semantics.cpp:2330-2414, 2731-2748, 2850-2856, over the
   statements of Stm_Model.  Expressions are taken to be correct and of the declared type; results are one cell or void. *)
From Verif Require Import Base Gen_Model Stm_Model.

(* A function's declaration: written with a new-style type (decl_.type.is_new), of type void, the implementation of a forward. *)
Record fundecl := mkFun { f_new : bool; f_void : bool; f_forward : bool }.
(* FunctionDecl::MustReturnValue (parse-node.cpp:159-161); explicit_return_type_ is set at name-resolution.cpp:774-778, and
   retvalue_used_ never: nothing in compiler/ calls set_retvalue_used (parse-node.h:1604). *)
Definition must_return (d : fundecl) : bool := (f_new d && negb (f_forward d)) && negb (f_void d).

(* What is reported.  NoValue: 209, 242 or 400, by ReportFunctionReturnError (2731-2748).  Unreachable: 225, at [s], which in its
   block comes after [pre] and before [post]. *)
Inductive report := Mixed | VoidReturnsValue | NoValue | Unreachable (pre : stmts) (s : stmt) (post : stmts).
(* SemaContext (semantics.h:107-113). *)
Record sema := mkSema { void_return : bool; warned_mixed : bool; returns_value : bool; warned_unreachable : bool; reports : list report }.
Definition say (x : report) (r : sema) : sema :=
  mkSema (void_return r) (warned_mixed r) (returns_value r) (warned_unreachable r) (reports r ++ [x]).
Definition sema0 : sema := mkSema false false false false [].
Fixpoint snoc (b : stmts) (s : stmt) : stmts := match b with SNil => SCons s SNil | SCons t r => SCons t (snoc r s) end.

Section Check.
Variable d : fundecl.
(* CheckReturnStmt, 2368-2414. *)
Definition check_return (e : option expr) (r : sema) : bool * sema :=
  match e with
  | None =>
      let r := if must_return d then say NoValue r else r in
      (true, mkSema true (warned_mixed r) (returns_value r) (warned_unreachable r) (reports r))
  | Some _ =>
      let r := if void_return r && negb (warned_mixed r)
               then mkSema (void_return r) true (returns_value r) (warned_unreachable r) (reports r ++ [Mixed; Mixed]) else r in
      if f_void d then (false, say VoidReturnsValue r)
      else (true, mkSema (void_return r) (warned_mixed r) true (warned_unreachable r) (reports r))
  end.
(* CheckStmt: whether the statement is right, as far as returns go.  CheckIfStmt 2229-2248, CheckBlockStmt 2330-2347 ([pre]: the
   statements before, [fl]: block->flow_type()), CheckDoWhileStmt 2576, CheckForStmt 2632, CheckSwitchStmt 2708-2715.  The
   flow types are those of statements without errors: after an error they no longer matter to what the user sees. *)
Fixpoint check (s : stmt) (r : sema) {struct s} : bool * sema :=
  match s with
  | SReturn e => check_return e r
  | SBlock b => check_l SNil FNone true b r
  | SIf _ a => check a r
  | SIfElse _ a b => let (ok, r) := check a r in if ok then check b r else (false, r)
  | SWhile _ b | SDo b _ | SFor _ _ _ b => check b r
  | SSwitch _ cs => (true, check_c cs r)
  | SExpr _ | SDecl _ _ | SBreak | SContinue => (true, r)
  end
with check_l (pre : stmts) (fl : flow) (ok : bool) (b : stmts) (r : sema) {struct b} : bool * sema :=
  match b with
  | SNil => (ok, r)
  | SCons s rest =>
      let r := if ok && negb (warned_unreachable r) && flow_eqb fl FReturn
               then mkSema (void_return r) (warned_mixed r) (returns_value r) true (reports r ++ [Unreachable pre s rest]) else r in
      let (ok1, r) := check s r in
      check_l (snoc pre s) (match fl with FNone => flow_of s | _ => fl end) (ok && ok1) rest r
  end
with check_c (cs : cases) (r : sema) {struct cs} : sema :=
  match cs with
  | KEnd => r
  | KDefault s => snd (check s r)
  | KCase _ s rest => check_c rest (snd (check s r))
  end.
(* The body is checked, then CheckFunctionReturnUsage (2850-2856). *)
Definition check_function (body : stmt) : list report :=
  let r := snd (check body sema0) in
  reports (if returns_value r && flow_eqb (flow_of body) FReturn then r else if must_return d then say NoValue r else r).
End Check.
