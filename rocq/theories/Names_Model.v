(* How names are bound to declarations: the scopes the compiler keeps while it
   walks a program, created only when something is added to them, and what it
   reports about names declared twice, hidden or never declared.
   Models /repo/compiler/name-resolution.cpp, symbols.cpp, scopes.h, scopes.cpp
   and semantics.h (SemaContext, AutoCreateScope).

   Simplifications, throughout:
   - types, array sizes, default values and everything else found out while
     names are bound are left out: only names are followed;
   - a declaration is known by its place in the text ([d_pos]) where the code
     has the address of its node;
   - enum structs, enumerations and their fields are declarations like those of
     variables (EnumDecl::EnterNames and EnumStructDecl::EnterNames,
     name-resolution.cpp:153-231 and 938-1010, call CheckNameRedefinition and
     DefineSymbol in the same way, after binding the value of a field);
     methodmaps and pstructs are left out;
   - names bound by the preprocessor (#if) are left out. *)

From Coq Require Import ZArith List Bool.
Import ListNotations.
Local Open Scope Z_scope.

(* What FunctionDecl remembers that redefinition depends on
   (parse-node.h:1506-1670). *)
Record fattr := mkF {
  f_fwd : bool;      (* is_forward_ *)
  f_native : bool;   (* is_native_ *)
  f_stock : bool;    (* is_stock_ *)
  f_static : bool;   (* is_static_ *)
  f_public : bool;   (* is_public_ *)
  f_body : bool      (* body_ is not null *)
}.

(* A Decl: its name, its place, and what is known of it if it is a function. *)
Record decl := mkD { d_name : Z; d_pos : Z; d_fn : option fattr }.

(* ScopeKind (symbols.h:44-52). *)
Inductive kind := KGlobal | KFile | KArg | KLocal.

Definition kind_eqb (a b : kind) : bool :=
  match a, b with
  | KGlobal, KGlobal | KFile, KFile | KArg, KArg | KLocal, KLocal => true
  | _, _ => false
  end.

(* vclass of a declaration: sGLOBAL, sSTATIC, or sLOCAL/sARGUMENT. *)
Inductive vclass := VGlobal | VStatic | VLocal.

(* SymbolScope (scopes.h:31-82).  Scopes live in a list, and a SymbolScope* is
   an index into it.  The map from atoms to declarations is a list, the latest
   first: a chain made by AddChain is the run of the entries of one name. *)
Record scope := mkS { s_parent : option nat; s_kind : kind; s_tab : list decl }.

(* SymbolScope::Find, scopes.h:40-47. *)
Fixpoint tab_find (n : Z) (t : list decl) : option decl :=
  match t with
  | [] => None
  | d :: t' => if d_name d =? n then Some d else tab_find n t'
  end.

(* FindSymbol(scope, name, &found), symbols.cpp:153-162: up the parents.  The
   fuel stands for the length of the chain; running out is its own answer. *)
Inductive lookup := LFound (d : decl) (s : nat) | LNone | LOut.

Fixpoint find_sym (fuel : nat) (h : list scope) (s : nat) (n : Z) : lookup :=
  match fuel with
  | O => LOut
  | S fuel' =>
    match nth_error h s with
    | None => LOut
    | Some sc =>
      match tab_find n (s_tab sc) with
      | Some d => LFound d s
      | None => match s_parent sc with
                | None => LNone
                | Some p => find_sym fuel' h p n
                end
      end
    end
  end.

(* AutoCreateScope (semantics.h:267-284): the scope outside, the kind to make,
   the scopes made inside that still want a parent. *)
Record creator := mkC { c_prev : nat; c_kind : kind; c_pending : list nat }.

(* What is reported, in order.  [Bound u d c]: the name at place u was bound:
   FindSymbol gave d, and SymbolExpr::DoBind keeps c.  [Undef]: error 17.
   [Redef]: error 21.  [Shadow]: warning 219.  [NotPublic]: warning 245.
   [Hidden]: error 412.  [Failed]: an assertion is false, or a scope that does
   not exist is looked at. *)
Inductive ev :=
| Bound (u d c : Z) | Undef (u : Z) | Redef (p : Z) | Shadow (p : Z)
| NotPublic (p : Z) | Hidden (p : Z) | Failed.

(* SemaContext: scope_ and scope_creator_ (with the creators outside it, that
   the code reaches through prev_creator_); the scopes; proto_or_impl_ of the
   functions that have one; what was reported so far. *)
Record state := mkSt {
  st_heap : list scope; st_cur : nat; st_cs : list creator;
  st_link : list (Z * Z); st_out : list ev
}.

Definition say (e : ev) (st : state) : state :=
  mkSt (st_heap st) (st_cur st) (st_cs st) (st_link st) (st_out st ++ [e]).

Fixpoint upd {A : Type} (l : list A) (i : nat) (f : A -> A) : list A :=
  match l, i with
  | [], _ => []
  | x :: l', O => f x :: l'
  | x :: l', S i' => x :: upd l' i' f
  end.

(* FindSymbol(sc, name, &found), symbols.cpp:164-166. *)
Definition look (st : state) (n : Z) : lookup :=
  find_sym (length (st_heap st)) (st_heap st) (st_cur st) n.

(* SemaContext::ScopeForAdd, name-resolution.cpp:1263-1277. *)
Definition scope_for_add (st : state) : state * nat :=
  match st_cs st with
  | [] => (st, st_cur st)
  | c :: _ =>
    if Nat.eqb (st_cur st) (c_prev c) then
      let i := length (st_heap st) in
      (mkSt (st_heap st ++ [mkS (Some (st_cur st)) (c_kind c) []]) i (st_cs st)
            (st_link st) (st_out st), i)
    else (st, st_cur st)
  end.

Definition kind_of (h : list scope) (s : nat) : kind :=
  match nth_error h s with Some sc => s_kind sc | None => KLocal end.

Definition global_or_file (k : kind) : bool :=
  match k with KGlobal | KFile => true | _ => false end.

Inductive status := SOk | SShadowed | SDuplicated | SStuck.

(* GetNewNameStatus, symbols.cpp:114-138.  [native]: sc.func() is a native. *)
Definition new_status (native : bool) (st : state) (v : vclass) (n : Z) : state * status :=
  let found :=
    if native then
      match nth_error (st_heap st) (st_cur st) with
      | None => LOut
      | Some sc => match tab_find n (s_tab sc) with
                   | Some d => LFound d (st_cur st)
                   | None => LNone
                   end
      end
    else look st n in
  match found with
  | LOut => (st, SStuck)
  | LNone => (st, SOk)
  | LFound d s =>
    let '(st1, current) := scope_for_add st in
    let kc := kind_of (st_heap st1) current in
    if kind_eqb (kind_of (st_heap st1) s) KGlobal && global_or_file kc then
      (st1, match v with VStatic => SShadowed | _ => SDuplicated end)
    else if Nat.eqb s current then (st1, SDuplicated)
    else if kind_eqb kc KArg && match d_fn d with Some _ => true | None => false end
    then (st1, SOk)
    else (st1, SShadowed)
  end.

(* CheckNameRedefinition, symbols.cpp:140-151. *)
Definition check_redef (native : bool) (st : state) (v : vclass) (d : decl) : state * bool :=
  match new_status native st v (d_name d) with
  | (st1, SDuplicated) => (say (Redef (d_pos d)) st1, false)
  | (st1, SShadowed) => (say (Shadow (d_pos d)) st1, true)
  | (st1, SOk) => (st1, true)
  | (st1, SStuck) => (say Failed st1, false)
  end.

Definition add_tab (d : decl) (sc : scope) : scope :=
  mkS (s_parent sc) (s_kind sc) (d :: s_tab sc).

(* DefineSymbol, symbols.cpp:168-181, with SymbolScope::Add and AddChain,
   scopes.cpp:28-49.  Add asserts that the name is not there yet. *)
Definition define (st : state) (v : vclass) (d : decl) : state :=
  let '(st1, s) := scope_for_add st in
  let h := st_heap st1 in
  match nth_error h s with
  | None => say Failed st1
  | Some sc =>
    let target :=
      if kind_eqb (s_kind sc) KFile && match v with VStatic => false | _ => true end
      then match v, s_parent sc with
           | VGlobal, Some p => if kind_eqb (kind_of h p) KGlobal then Some p else None
           | _, _ => None
           end
      else Some s in
    match target with
    | None => say Failed st1
    | Some t =>
      let put := mkSt (upd h t (add_tab d)) (st_cur st1) (st_cs st1) (st_link st1) (st_out st1) in
      if global_or_file (kind_of h t) then put
      else match nth_error h t with
           | Some tc => match tab_find (d_name d) (s_tab tc) with
                        | Some _ => say Failed st1
                        | None => put
                        end
           | None => say Failed st1
           end
    end
  end.

(* Expressions, as the names they use, in the order in which Bind visits them
   (name-resolution.cpp:488-637).  [EPair] is every expression that binds its
   parts one after the other and goes on after a failure; [ECall] is CallExpr,
   which leaves out the arguments if the called name is not found. *)
Inductive expr :=
| ENone
| EUse (u n : Z)
| EPair (a b : expr)
| ECall (f a : expr).

Definition assoc (k : Z) (l : list (Z * Z)) : option Z :=
  match find (fun x => fst x =? k) l with Some (_, v) => Some v | None => None end.

(* FunctionDecl::canonical, parse-node.cpp:149-153, for what FindSymbol gave. *)
Definition canonical (links : list (Z * Z)) (d : decl) : Z :=
  match d_fn d with
  | None => d_pos d
  | Some a => if f_body a then d_pos d
              else match assoc (d_pos d) links with Some p => p | None => d_pos d end
  end.

(* Expr::Bind; SymbolExpr::DoBind is name-resolution.cpp:501-524. *)
Fixpoint bind_e (st : state) (e : expr) : state * bool :=
  match e with
  | ENone => (st, true)
  | EUse u n =>
    match look st n with
    | LFound d _ => (say (Bound u (d_pos d) (canonical (st_link st) d)) st, true)
    | LNone => (say (Undef u) st, false)
    | LOut => (say Failed st, false)
    end
  | EPair a b =>
    let '(st1, ok1) := bind_e st a in
    let '(st2, ok2) := bind_e st1 b in
    (st2, ok1 && ok2)
  | ECall f a =>
    let '(st1, ok1) := bind_e st f in
    if ok1 then bind_e st1 a else (st1, false)
  end.

(* VarDeclBase::Bind, name-resolution.cpp:427-472: the initialiser (and the
   sizes of arrays) first, then the name. *)
Definition bind_var (native : bool) (st : state) (v : vclass) (d : decl) (e : expr) : state :=
  let '(st1, _) := bind_e st e in
  let '(st2, ok) := check_redef native st1 v d in
  if ok then define st2 v d else st2.

(* ConstDecl::EnterNames and Bind, name-resolution.cpp:381-425: the name first,
   and then the expression; nothing more if the name was refused. *)
Definition bind_const (native : bool) (st : state) (v : vclass) (d : decl) (e : expr) : state :=
  let '(st1, ok) := check_redef native st v d in
  if ok then fst (bind_e (define st1 v d) e) else st1.

(* AutoCreateScope's constructor, name-resolution.cpp:1279-1287. *)
Definition enter_lazy (st : state) (k : kind) : state :=
  mkSt (st_heap st) (st_cur st) (mkC (st_cur st) k [] :: st_cs st) (st_link st) (st_out st).

Definition set_parent (p : nat) (sc : scope) : scope := mkS (Some p) (s_kind sc) (s_tab sc).

(* for (child : pending_) child->set_parent(scope) *)
Definition reparent (p : nat) (l : list nat) (h : list scope) : list scope :=
  fold_left (fun h i => upd h i (set_parent p)) l h.

Definition add_pending (l : list nat) (c : creator) : creator :=
  mkC (c_prev c) (c_kind c) (c_pending c ++ l).

(* AutoCreateScope's destructor, name-resolution.cpp:1289-1313. *)
Definition leave_lazy (st : state) : state :=
  match st_cs st with
  | [] => say Failed st
  | c :: outer =>
    let cur := st_cur st in
    let '(h, outer', pend) :=
      if Nat.eqb cur (c_prev c) then
        match outer with
        | p :: rest => (st_heap st, add_pending (c_pending c) p :: rest, [])
        | [] => (st_heap st, [], c_pending c)
        end
      else
        match outer with
        | p :: rest => (st_heap st, add_pending [cur] p :: rest, c_pending c)
        | [] => (upd (st_heap st) cur (set_parent (c_prev c)), [], c_pending c)
        end in
    mkSt (reparent cur pend h) (c_prev c) outer' (st_link st) (st_out st)
  end.

(* Statements, as far as names go.  [SSeq] is StmtList; [SExpr] every statement
   that only binds an expression (ExprStmt, return, exit, delete, assertions);
   [SVar] a local or static local variable, or a name of an enumeration;
   [SBlock] BlockStmt; [SLoop] while and do; [SFor] for, whose flag says that
   its first part is a declaration; [SSwitch e d cs] has the default part in d,
   and in cs the cases, each an expression and a statement. *)
Inductive stmt :=
| SSkip
| SSeq (a b : stmt)
| SExpr (e : expr)
| SVar (p n : Z) (e : expr)
| SConst (p n : Z) (e : expr)
| SBlock (s : stmt)
| SIf (e : expr) (a b : stmt)
| SLoop (e : expr) (s : stmt)
| SFor (own : bool) (i : stmt) (c a : expr) (s : stmt)
| SSwitch (e : expr) (d cs : stmt).

(* Stmt::Bind inside a function, name-resolution.cpp:121-151 and 639-709.  An
   empty block makes no creator in the code; here it makes one that does
   nothing. *)
Fixpoint bind_s (native : bool) (st : state) (s : stmt) : state :=
  match s with
  | SSkip => st
  | SSeq a b => bind_s native (bind_s native st a) b
  | SExpr e => fst (bind_e st e)
  | SVar p n e => bind_var native st VLocal (mkD n p None) e
  | SConst p n e => bind_const native st VLocal (mkD n p None) e
  | SBlock b => leave_lazy (bind_s native (enter_lazy st KLocal) b)
  | SIf e a b => bind_s native (bind_s native (fst (bind_e st e)) a) b
  | SLoop e b => bind_s native (fst (bind_e st e)) b
  | SFor own i c a b =>
    let st0 := if own then enter_lazy st KLocal else st in
    let st1 := bind_s native st0 i in
    let st2 := bind_s native (fst (bind_e (fst (bind_e st1 c)) a)) b in
    if own then leave_lazy st2 else st2
  | SSwitch e d cs => bind_s native (bind_s native (fst (bind_e st e)) d) cs
  end.

(* An argument: its place, its name, its default value. *)
Record arg := mkA { a_pos : Z; a_name : Z; a_init : expr }.

(* What stands at the top of a file. *)
Inductive item :=
| TVar (static : bool) (p n : Z) (e : expr)       (* variable, enumeration *)
| TConst (p n : Z) (e : expr)
| TFun (a : fattr) (p n : Z) (args : list arg) (body : stmt)
| TMethod (native : bool) (args : list arg) (body : stmt)
| TExpr (e : expr).                               (* static_assert *)

(* FunctionDecl::CanRedefine, name-resolution.cpp:730-766.  The flag set on the
   implementation of a forward (set_is_public) is not kept: an implementation
   that was paired is never found again by its name. *)
Definition can_redefine (st : state) (other this : decl) (a : fattr) : state * bool :=
  match d_fn other with
  | None => (say (Redef (d_pos this)) st, false)
  | Some fa =>
    if f_fwd fa && negb (f_fwd a) && negb (f_native a) && negb (f_stock a) && negb (f_static a)
    then
      if negb (f_public a) then (say (NotPublic (d_pos this)) st, true)
      else if f_body fa || match assoc (d_pos other) (st_link st) with
                           | Some _ => true | None => false end
      then (say (Redef (d_pos this)) st, false)
      else (st, true)
    else if f_body fa then
      if f_fwd a && negb (f_public fa) then (say (Hidden (d_pos this)) st, false)
      else if f_body a then (say (Redef (d_pos this)) st, false)
      else (st, true)
    else (say (Redef (d_pos this)) st, false)
  end.

(* FunctionDecl::EnterNames, name-resolution.cpp:711-728.  The assertion that
   the other declaration has no partner yet stops the compiler. *)
Definition enter_fun (st : state) (this : decl) (a : fattr) : state :=
  match look st (d_name this) with
  | LOut => say Failed st
  | LNone => define st (if f_static a then VStatic else VGlobal) this
  | LFound other _ =>
    let '(st1, ok) := can_redefine st other this a in
    if ok then
      match assoc (d_pos other) (st_link st1) with
      | Some _ => say Failed st1
      | None => mkSt (st_heap st1) (st_cur st1) (st_cs st1)
                     ((d_pos this, d_pos other) :: (d_pos other, d_pos this) :: st_link st1)
                     (st_out st1)
      end
    else st1
  end.

(* ChangeScopeNode, name-resolution.cpp:1249-1261: file f has scope S f.  The
   code changes scope where the file changes; here before every item. *)
Definition in_file (st : state) (f : nat) : state :=
  mkSt (st_heap st) (S f) (st_cs st) (st_link st) (st_out st).

(* EnterNames of an item. *)
Definition enter_item (st : state) (x : nat * item) : state :=
  let st0 := in_file st (fst x) in
  match snd x with
  | TVar static p n e => bind_var false st0 (if static then VStatic else VGlobal) (mkD n p None) e
  | TConst p n e => bind_const false st0 VGlobal (mkD n p None) e
  | TFun a p n _ _ => enter_fun st0 (mkD n p (Some a)) a
  | TMethod _ _ _ => st0
  | TExpr _ => st0
  end.

Fixpoint bind_args (native : bool) (st : state) (l : list arg) : state :=
  match l with
  | [] => st
  | x :: l' =>
    bind_args native
      (bind_var native st VLocal (mkD (a_name x) (a_pos x) None) (a_init x)) l'
  end.

(* FunctionDecl::Bind, name-resolution.cpp:768-837: with arguments, a scope for
   them (AutoEnterScope, lines 40-57), then the body; a fresh SemaContext has
   no creator (semantics.h:49-57). *)
Definition bind_fun (native : bool) (st : state) (args : list arg) (body : stmt) : state :=
  let f := st_cur st in
  let st0 := mkSt (st_heap st) f [] (st_link st) (st_out st) in
  let st1 :=
    match args with
    | [] => st0
    | _ => bind_args native
             (mkSt (st_heap st0 ++ [mkS (Some f) KArg []]) (length (st_heap st0)) []
                   (st_link st0) (st_out st0)) args
    end in
  let st2 := bind_s native st1 (SBlock body) in
  mkSt (st_heap st2) f (st_cs st) (st_link st2) (st_out st2).

(* Bind of an item: variables and constants were bound when their names were
   entered. *)
Definition bind_item (st : state) (x : nat * item) : state :=
  let st0 := in_file st (fst x) in
  match snd x with
  | TVar _ _ _ _ => st0
  | TConst _ _ _ => st0
  | TFun a _ _ args body => bind_fun (f_native a) st0 args body
  | TMethod native args body => bind_fun native st0 args body
  | TExpr e => fst (bind_e st0 e)
  end.

(* The scopes there are when names are first entered: the global one
   (compile-context.cpp:60) and one for each file (parser.cpp:208-217). *)
Definition start (files : nat) : state :=
  mkSt (mkS None KGlobal [] :: repeat (mkS (Some 0%nat) KFile []) files) 0 [] [] [].

(* ParseTree::ResolveNames, name-resolution.cpp:112-119: the items of the whole
   program, each with the number of its file. *)
Definition resolve_names (files : nat) (p : list (nat * item)) : state :=
  fold_left bind_item p (fold_left enter_item p (start files)).

Definition is_error (e : ev) : bool :=
  match e with
  | Undef _ | Redef _ | Hidden _ | Failed => true
  | Bound _ _ _ | Shadow _ | NotPublic _ => false
  end.

(* Nothing was reported that stops the program from being compiled. *)
Definition accepted (st : state) : Prop := forall e, In e (st_out st) -> is_error e = false.
