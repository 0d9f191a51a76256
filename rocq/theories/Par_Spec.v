(* The grammar of expressions.  C47. *)
From Verif Require Import Base Par_Model.

(* How tightly each binary operator binds: 1 is tightest.  All of them group to the left, except that a run of comparisons
   (level 7) is one chain. *)
Definition prec (p : punct) : option nat :=
  match p with
  | PStar | PSlash | PPercent => Some 1%nat
  | PPlus | PMinus => Some 2%nat
  | PShl | PShr | PShru => Some 3%nat
  | PAmp => Some 4%nat
  | PCaret => Some 5%nat
  | PBar => Some 6%nat
  | PLess | PLe | PMore | PGe => Some 7%nat
  | PEq | PNe => Some 8%nat
  | PAnd => Some 9%nat
  | POr => Some 10%nat
  | _ => None
  end.
Definition is_unary (p : punct) : bool := match p with PTilde | PMinus | PBang => true | _ => false end.
Definition is_step (p : punct) : bool := match p with PInc | PDec => true | _ => false end.
Definition is_member (p : punct) : bool := match p with PDot | PDblColon => true | _ => false end.
Definition open_par (t : token) : Prop := kind t = P PLPar.
Definition close_par (t : token) : Prop := kind t = P PRPar.

Section Grammar.
Variable ns : bool.                     (* statements must end in a semicolon *)

(* [reads tags k l e]: the tokens [l] read as [e] at level [k]: 0 unary operators, 1-10 binary ones, 11 the conditional
   operator, 12 assignment.  [tags]: a name with a colon attached is a tag. *)
Inductive reads : bool -> nat -> list token -> expr -> Prop :=
(* what binds tighter will do *)
| r_up t k l e : reads t k l e -> (k < 12)%nat -> reads t (S k) l e
| r_operand t l e : operand t false l e -> reads t 0 l e
(* unary *)
| r_unary t op tok l e : kind tok = P op -> is_unary op = true -> reads t 0 l e -> reads t 0 (tok :: l) (EUnary op e)
| r_preinc t op tok l e : kind tok = P op -> is_step op = true -> reads t 0 l e -> reads t 0 (tok :: l) (EPreInc op e)
| r_postinc t op tok l e : operand t false l e -> kind tok = P op -> is_step op = true -> ns = true \/ bol tok = false ->
    reads t 0 (l ++ [tok]) (EPostInc op e)
| r_cast s tok col l e : kind tok = Sym s -> kind col = Colon true -> reads true 0 l e -> reads true 0 (tok :: col :: l) (ECast s e)
| r_new t s kw tok o l a : kind kw = New -> kind tok = Sym s -> open_par o -> arguments t l a ->
    reads t 0 (kw :: tok :: o :: l) (ENew s a)
| r_newarray t s kw tok o l a : kind kw = New -> (kind tok = Sym s \/ kind tok = Ty s) -> kind o = P PLBrk -> dimensions t l a ->
    reads t 0 (kw :: tok :: o :: l) (ENewArray s a)
| r_sizeof t kw o l c e : kind kw = Sizeof -> Forall open_par o -> Forall close_par c -> length c = length o ->
    operand t true l e -> (forall x r, l = x :: r -> ~ open_par x) ->
    reads t 0 (kw :: o ++ l ++ c) (ESizeof e)
(* binary *)
| r_binary t k op tok l1 a l2 b : kind tok = P op -> prec op = Some (S k) -> S k <> 7%nat ->
    reads t (S k) l1 a -> reads t k l2 b ->
    reads t (S k) (l1 ++ tok :: l2) (match op with PAnd | POr => ELogic op a b | _ => EBin op a b end)
| r_compare t op tok l1 a l2 b : kind tok = P op -> prec op = Some 7%nat -> reads t 6 l1 a -> reads t 6 l2 b ->
    reads t 7 (l1 ++ tok :: l2) (EBin op a b)
| r_chain t l1 a l2 c : reads t 6 l1 a -> chain t l2 c -> (2 <= length c)%nat -> reads t 7 (l1 ++ l2) (EChain a c)
(* conditional, assignment: to the right *)
| r_ternary t q col g l1 c l2 a l3 b : kind q = P PQuestion -> kind col = Colon g ->
    reads t 10 l1 c -> reads false 11 l2 a -> reads t 11 l3 b -> reads t 11 (l1 ++ q :: l2 ++ col :: l3) (ETernary c a b)
| r_assign t o tok l1 a l2 b : kind tok = P (PAsg o) -> reads t 11 l1 a -> reads t 12 l2 b ->
    reads t 12 (l1 ++ tok :: l2) (EAssign o a b)
(* Operands: names, literals, parentheses, and what is accessed through them.  [ix]: an index may be left out. *)
with operand : bool -> bool -> list token -> expr -> Prop :=
| o_sym t x s tok : kind tok = Sym s -> operand t x [tok] (ESym s)
| o_lit t x v tok : kind tok = Lit v -> operand t x [tok] (ELit v)
| o_this t x tok : kind tok = This -> operand t x [tok] EThis
| o_paren t x o l e c : open_par o -> reads true 12 l e -> close_par c -> operand t x (o :: l ++ [c]) e
| o_comma t x o l es c : open_par o -> sequence true l es -> (2 <= length es)%nat -> close_par c -> operand t x (o :: l ++ [c]) (EComma es)
| o_array t x o l es b c : kind o = P PLBrace -> elements t l es b -> kind c = P PRBrace -> operand t x (o :: l ++ [c]) (EArray es b)
| o_view t x s kw lt tok gt o l e c : kind kw = ViewAs -> kind lt = P PLess -> (kind tok = Sym s \/ kind tok = Ty s) ->
    kind gt = P PMore -> open_par o -> reads t 12 l e -> close_par c ->
    operand t x (kw :: lt :: tok :: gt :: o :: l ++ [c]) (EView s e)
| o_member t x l e op dot tok s : operand t x l e -> kind dot = P op -> is_member op = true -> kind tok = Sym s ->
    operand t x (l ++ [dot; tok]) (EField op e s)
| o_index t x l e o l2 i c : operand t x l e -> kind o = P PLBrk -> reads t 12 l2 i -> kind c = P PRBrk ->
    operand t x (l ++ o :: l2 ++ [c]) (EIndex e (Some i))
| o_noindex t l e o c : operand t true l e -> kind o = P PLBrk -> kind c = P PRBrk -> operand t true (l ++ [o; c]) (EIndex e None)
| o_call t x l e o l2 a : operand t x l e -> open_par o -> arguments t l2 a -> operand t x (l ++ o :: l2) (ECall e a)
(* op e, op e, ... *)
with chain : bool -> list token -> list (punct * expr) -> Prop :=
| c_nil t : chain t [] []
| c_cons t op tok l b l2 c : kind tok = P op -> prec op = Some 7%nat -> reads t 6 l b -> chain t l2 c ->
    chain t (tok :: l ++ l2) ((op, b) :: c)
(* e, e, ... *)
with sequence : bool -> list token -> list expr -> Prop :=
| s_one t l e : reads t 12 l e -> sequence t l [e]
| s_cons t l e c l2 es : reads t 12 l e -> kind c = P PComma -> sequence t l2 es -> sequence t (l ++ c :: l2) (e :: es)
with elements : bool -> list token -> list expr -> bool -> Prop :=
| e_dots t tok : kind tok = P PEllips -> elements t [tok] [] true
| e_one t l e : reads t 12 l e -> elements t l [e] false
| e_cons t l e c l2 es b : reads t 12 l e -> kind c = P PComma -> elements t l2 es b -> elements t (l ++ c :: l2) (e :: es) b
(* e ] [ e ] ... *)
with dimensions : bool -> list token -> list expr -> Prop :=
| d_one t l e c : reads t 12 l e -> kind c = P PRBrk -> dimensions t (l ++ [c]) [e]
| d_cons t l e c o l2 es : reads t 12 l e -> kind c = P PRBrk -> kind o = P PLBrk -> dimensions t l2 es ->
    dimensions t (l ++ c :: o :: l2) (e :: es)
(* arguments and the closing parenthesis; named ones come last *)
with arguments : bool -> list token -> list arg -> Prop :=
| a_none t c : close_par c -> arguments t [c] []
| a_some t l a : argument_list t false l a -> arguments t l a
with argument_list : bool -> bool -> list token -> list arg -> Prop :=
| al_last t n n' l a c : argument t n n' l a -> close_par c -> argument_list t n (l ++ [c]) [a]
| al_cons t n n' l a c l2 as_ : argument t n n' l a -> kind c = P PComma -> argument_list t n' l2 as_ -> argument_list t n (l ++ c :: l2) (a :: as_)
with argument : bool -> bool -> bool -> list token -> arg -> Prop :=
| a_default t tok : kind tok = Under -> argument t false false [tok] ADefault
| a_expr t l e : reads t 12 l e -> argument t false false l (AExpr e)
| a_named t n d tok eq l s e : kind d = P PDot -> kind tok = Sym s -> kind eq = P (PAsg ASet) -> reads t 12 l e ->
    argument t n true (d :: tok :: eq :: l) (ANamed s e)
| a_named_default t n d tok eq u s : kind d = P PDot -> kind tok = Sym s -> kind eq = P (PAsg ASet) -> kind u = Under ->
    argument t n true [d; tok; eq; u] ADefault.

(* The next token cannot go on with what was read at level [k]. *)
Definition goes_on (t : bool) (tok : token) : option nat :=
  match kind tok with
  | Colon true => if t then Some 0%nat else None
  | P p =>
    match p with
    | PDot | PDblColon | PLBrk | PLPar => Some 0%nat
    | PInc | PDec => if negb ns && bol tok then None else Some 0%nat
    | PQuestion => Some 11%nat
    | PAsg _ => Some 12%nat
    | _ => prec p
    end
  | _ => None
  end.
Definition ends (t : bool) (k : nat) (rest : list token) : Prop :=
  match rest with
  | [] => True
  | tok :: _ => match goes_on t tok with Some j => (k < j)%nat | None => True end
  end.
End Grammar.
