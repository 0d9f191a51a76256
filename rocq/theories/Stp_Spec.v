(* The grammar of statements.  C48. *)
From Verif Require Import Base Par_Model Par_Spec Stp_Model.

Definition first (P : token -> Prop) (l : list token) : Prop := match l with [] => True | t :: _ => P t end.
Definition kw_tok (k : kw) (t : token) : Prop := kind t = Other k.
Definition no_exit (l : list token) : Prop := Forall (fun t => kind t <> Other KExit) l.

(* A break or continue outside the loops of the statement; a declaration as the body of a branch, loop or case. *)
Definition decl_stmt (s : stmt) : bool := match s with SDecl _ _ => true | _ => false end.
Fixpoint jumps (s : stmt) : bool :=
  match s with
  | SBreak | SContinue => true
  | SBlock l => existsb jumps l
  | SIf _ a b => jumps a || match b with Some b => jumps b | None => false end
  | SSwitch _ l d => existsb (fun c => jumps (snd c)) l || match d with Some d => jumps d | None => false end
  | _ => false
  end.
Fixpoint bare (s : stmt) : bool :=
  match s with
  | SBlock l => existsb bare l
  | SIf _ a b => decl_stmt a || bare a || match b with Some b => decl_stmt b || bare b | None => false end
  | SWhile _ s | SDoWhile s _ | SFor _ _ _ s => decl_stmt s || bare s
  | SSwitch _ l d => existsb (fun c => decl_stmt (snd c) || bare (snd c)) l || match d with Some d => decl_stmt d || bare d | None => false end
  | _ => false
  end.

(* A declaration begins with a type, or is name name or name [ ]. *)
Inductive looks_declared : list token -> Prop :=
| ld_type t s r : kind t = Ty s -> looks_declared (t :: r)
| ld_names t s t2 s2 r : kind t = Sym s -> kind t2 = Sym s2 -> first (fun x => kind x <> Colon true) r -> looks_declared (t :: t2 :: r)
| ld_array t s o c r : kind t = Sym s -> kind o = P PLBrk -> kind c = P PRBrk -> looks_declared (t :: o :: c :: r).

Section Grammar.
Variable ns : bool.                     (* statements must end in a semicolon *)
Variable is_string : Z -> bool.
(* What is required of the text behind an expression: if [strict], that its first token could not go on with the expression.
   (When semicolons are optional a line may also end where the next token could not have been read anyway, as in a++ and [ on
   the next line.) *)
Variable strict : bool.
Definition follow (t : bool) (rest : list token) : Prop := (strict = true -> ends ns t 12 rest) /\ first (fun x => kind x <> P PComma) rest.

(* expression, expression, ... *)
Definition listed (t : bool) (l : list token) (e : expr) (rest : list token) : Prop :=
  (exists es, sequence ns t l es /\ (es = [e] \/ (2 <= length es)%nat /\ e = EComma es)) /\ follow t rest.
(* The end of a statement: a semicolon, or a line's end if semicolons are optional. *)
Definition fresh (rest : list token) : Prop := first (fun x => bol x = true /\ kind x <> P PSemi) rest.
Definition stops (c rest : list token) : Prop := (exists t, kind t = P PSemi /\ c = [t]) \/ (c = [] /\ ns = false /\ fresh rest).

Inductive initialiser : list token -> option expr -> list token -> Prop :=
| i_none rest : first (fun x => kind x <> P (PAsg ASet) /\ kind x <> Colon true) rest -> initialiser [] None rest
| i_string eq tok v rest : kind eq = P (PAsg ASet) -> kind tok = Lit v -> is_string v = true -> initialiser [eq; tok] (Some (ELit v)) rest
| i_expr eq l e rest : kind eq = P (PAsg ASet) -> reads ns true 12 l e -> (strict = true -> ends ns true 12 rest) ->
    first (fun x => kind x <> P PLBrace /\ forall v, kind x = Lit v -> is_string v = false) l -> initialiser (eq :: l) (Some e) rest.
Inductive variables : list token -> list (Z * option expr) -> list token -> Prop :=
| v_last n s li o rest : kind n = Sym s -> initialiser li o rest -> first (fun x => kind x <> P PComma) rest -> variables (n :: li) [(s, o)] rest
| v_more n s li o c l vs rest : kind n = Sym s -> initialiser li o (c :: l ++ rest) -> kind c = P PComma -> variables l vs rest ->
    variables (n :: li ++ c :: l) ((s, o) :: vs) rest.
Inductive declaration : list token -> stmt -> list token -> Prop :=
| d_vars t ty l vs rest : kind t = Sym ty \/ kind t = Ty ty -> variables l vs rest -> declaration (t :: l) (SDecl ty vs) rest.

(* An expression statement begins neither like a declaration nor like a block; new only in new T(...). *)
Definition plain (l rest : list token) : Prop :=
  ~ looks_declared (l ++ rest) /\ first (fun x => kind x <> P PLBrace) l /\
  (first (fun x => kind x <> New) l \/ exists k t s o r, l = k :: t :: o :: r /\ kind t = Sym s /\ kind o = P PLPar).
Definition parenthesised (l : list token) (e : expr) : Prop :=
  exists o l' c, l = o :: l' ++ [c] /\ open_par o /\ close_par c /\ listed true l' e [c].
(* for and switch: parentheses, or (old style) nothing and do. *)
Definition opening (par : bool) (o next : list token) : Prop :=
  if par then exists t, o = [t] /\ open_par t else o = [] /\ first (fun x => kind x <> P PLPar) next.
Definition closer (par : bool) (t : token) : Prop := if par then close_par t else kw_tok KDo t.

Inductive for_init : list token -> option stmt -> list token -> Prop :=
| fi_none t rest : kind t = P PSemi -> for_init [t] None rest
| fi_decl l s t rest : looks_declared (l ++ t :: rest) -> declaration l s (t :: rest) -> kind t = P PSemi -> for_init (l ++ [t]) (Some s) rest
| fi_expr l e t rest : ~ looks_declared (l ++ t :: rest) -> first (fun x => kind x <> New) l -> listed true l e (t :: rest) -> kind t = P PSemi ->
    for_init (l ++ [t]) (Some (SExpr e)) rest.
(* An optional expression and the token behind it. *)
Inductive optional (ok : token -> Prop) : list token -> option expr -> list token -> Prop :=
| op_none t rest : ok t -> optional ok [t] None rest
| op_some l e t rest : listed true l e (t :: rest) -> ok t -> optional ok (l ++ [t]) (Some e) rest.

(* [states decl loop l s rest]: the tokens [l], with [rest] behind them, read as the statement [s].  [decl]: a declaration may
   stand here.  [loop]: inside a loop. *)
Inductive states : bool -> bool -> list token -> stmt -> list token -> Prop :=
| st_expr d p l e c rest : listed true l e (c ++ rest) -> plain l (c ++ rest) -> stops c rest -> states d p (l ++ c) (SExpr e) rest
| st_decl p l s c rest : looks_declared (l ++ c ++ rest) -> declaration l s (c ++ rest) -> stops c rest -> states true p (l ++ c) s rest
| st_block d p o l ss c rest : kind o = P PLBrace -> block p l ss (c :: rest) -> kind c = P PRBrace -> states d p (o :: l ++ [c]) (SBlock ss) rest
(* an else belongs to the nearest if: one without is not followed by an else *)
| st_if d p k lc c l1 a rest : kw_tok KIf k -> parenthesised lc c -> states false p l1 a rest -> first (fun x => ~ kw_tok KElse x) rest ->
    states d p (k :: lc ++ l1) (SIf c a None) rest
| st_else d p k lc c l1 a k2 l2 b rest : kw_tok KIf k -> parenthesised lc c -> states false p l1 a (k2 :: l2 ++ rest) -> kw_tok KElse k2 ->
    states false p l2 b rest -> states d p (k :: lc ++ l1 ++ k2 :: l2) (SIf c a (Some b)) rest
| st_while d p k lc c l s rest : kw_tok KWhile k -> parenthesised lc c -> states false true l s rest -> states d p (k :: lc ++ l) (SWhile c s) rest
| st_do d p k l s k2 lc c lt rest : kw_tok KDo k -> states false true l s (k2 :: lc ++ lt ++ rest) -> kw_tok KWhile k2 -> parenthesised lc c -> stops lt rest ->
    states d p (k :: l ++ k2 :: lc ++ lt) (SDoWhile s c) rest
| st_do_old d p k l s k2 lc c lt rest : kw_tok KDo k -> states false true l s (k2 :: lc ++ lt ++ rest) -> kw_tok KWhile k2 ->
    listed true lc c (lt ++ rest) -> first (fun x => kind x <> P PLPar) lc -> stops lt rest ->
    states d p (k :: l ++ k2 :: lc ++ lt) (SDoWhile s c) rest
| st_for d p k par o li init lc c la adv l s rest : kw_tok KFor k -> opening par o (li ++ lc ++ la ++ l ++ rest) ->
    for_init li init (lc ++ la ++ l ++ rest) -> optional (fun t => kind t = P PSemi) lc c (la ++ l ++ rest) -> optional (closer par) la adv (l ++ rest) ->
    states false true l s rest -> states d p (k :: o ++ li ++ lc ++ la ++ l) (SFor init c adv s) rest
| st_switch d p k par o l e c b lc cs df rest : kw_tok KSwitch k -> opening par o (l ++ c :: b :: lc ++ rest) -> listed true l e (c :: b :: lc ++ rest) -> closer par c ->
    kind b = P PLBrace -> labels p false lc cs df rest -> states d p (k :: o ++ l ++ c :: b :: lc) (SSwitch e cs df) rest
| st_break d k c rest : kw_tok KBreak k -> stops c rest -> states d true (k :: c) SBreak rest
| st_continue d k c rest : kw_tok KContinue k -> stops c rest -> states d true (k :: c) SContinue rest
| st_return d p k c rest : kw_tok KReturn k -> stops c rest -> states d p (k :: c) (SReturn None) rest
| st_return_value d p k l e c rest : kw_tok KReturn k -> listed true l e (c ++ rest) -> first (fun x => ns = true \/ bol x = false) l -> stops c rest ->
    states d p (k :: l ++ c) (SReturn (Some e)) rest
| st_assert d p k lc e c rest : kw_tok KAssert k -> parenthesised lc e -> stops c rest -> states d p (k :: lc ++ c) (SAssert e) rest
| st_delete d p k l e c rest : kw_tok KDelete k -> listed true l e (c ++ rest) -> stops c rest -> states d p (k :: l ++ c) (SDelete e) rest
with block : bool -> list token -> list stmt -> list token -> Prop :=
| bl_nil p rest : first (fun x => kind x = P PRBrace) rest -> block p [] [] rest
| bl_cons p l s l2 ss rest : states true p l s (l2 ++ rest) -> block p l2 ss rest -> block p (l ++ l2) (s :: ss) rest
(* case e, e: statement ... default: statement } *)
with labels : bool -> bool -> list token -> list (list expr * stmt) -> option stmt -> list token -> Prop :=
| lb_end p f c rest : kind c = P PRBrace -> labels p f [c] [] None rest
| lb_case p k le es col g l s l2 cs df rest : kw_tok KCase k -> sequence ns false le es -> kind col = Colon g -> states false p l s (l2 ++ rest) ->
    labels p false l2 cs df rest -> labels p false (k :: le ++ col :: l ++ l2) ((es, s) :: cs) df rest
| lb_default p k col g l s l2 rest : kw_tok KDefault k -> kind col = Colon g -> states false p l s (l2 ++ rest) ->
    labels p true l2 [] None rest -> labels p false (k :: col :: l ++ l2) [] (Some s) rest.
End Grammar.
