(* Code generation for 32-bit integer expressions: /repo/compiler/code-generator.cpp, over the emitting
   interface of Label_Model.  Every operand has type int, bool or char: no float, int64, char array,
   accessor, call or cast.  Name resolution and type checking are done: a variable is a local or argument
   (its slot), a global or static (numbered), or a reference argument (its slot); an array is a global one
   or one whose address is in a slot (local arrays and array arguments). *)
From Verif Require Import Base Interp_Model Fold_Model.
From Verif Require Label_Model.
Notation aop := Label_Model.aop.
Notation Emit := Label_Model.Emit.
Notation EmitLabel := Label_Model.EmitLabel.
Notation Bind := Label_Model.Bind.

Inductive var := VLocal (slot : Z) | VGlobal (g : nat) | VRef (slot : Z).
Inductive aref := AGlobal (g : nat) | ALocal (slot : Z).

(* compiler/parse-node.h: NumberExpr/TaggedValueExpr, RvalueExpr, UnaryExpr, BinaryExpr (an operator, '=',
   or a compound assignment), LogicalExpr, ChainedCompareExpr (two links or more), TernaryExpr, CommaExpr
   (nested to the right), IncDecExpr; the lvalues SymbolExpr and IndexExpr (one dimension; [size] is
   ArrayType::size, 0 when it is not known).  [pre]: the value before the change is wanted, i.e. a
   postfix operator whose result is not discarded (code-generator.cpp:679). *)
Inductive expr :=
| Num (v : Z)
| Rv (l : lval)
| Un (op : unop) (e : expr)
| Bin (op : binop) (a b : expr)
| Log (op : logop) (a b : expr)
| Chain (a : expr) (op : binop) (b : expr) (rest : chain)
| Tern (c a b : expr)
| Comma (a b : expr)
| Asg (l : lval) (e : expr)
| AsgOp (l : lval) (op : binop) (e : expr)
| Inc (l : lval) (up pre : bool)
with lval := LVar (x : var) | LCell (r : aref) (size : Z) (i : expr)
with chain := CEnd | CMore (op : binop) (e : expr) (rest : chain).

(* Constant values after semantic analysis (val().ident == iCONSTEXPR): semantics.cpp:536-575 unary, 744-752
   binary, 1039-1046 logical, 1055-1125 chains; nothing else is folded (the conditional operator only in
   initialisers and the like, see Fold_Model.fold_ternary). *)
Fixpoint konst (e : expr) : option Z :=
  match e with
  | Num v => Some v
  | Un op a =>
      match konst a with
      | Some v => match fold_unary false op v with Folded w => Some w | _ => None end
      | None => None
      end
  | Bin op a b =>
      match konst a, konst b with
      | Some x, Some y => match calc false op x y with Folded w => Some w | _ => None end
      | _, _ => None
      end
  | Log op a b =>
      match konst a, konst b with
      | Some x, Some y => Some (fold_logical op x y)
      | _, _ => None
      end
  | Chain a op b rest =>
      match konst a, konst b with
      | Some x, Some y => kchain (link op x y) y rest
      | _, _ => None
      end
  | _ => None
  end
with kchain (acc : bool) (l : Z) (c : chain) : option Z :=
  match c with
  | CEnd => Some (b2z acc)
  | CMore op e rest =>
      match konst e with Some y => kchain (acc && link op l y) y rest | None => None end
  end.

(* expressions.cpp:438-453. *)
Definition commutative (op : binop) : bool :=
  match op with BAdd | BMul | BEq | BNe | BAnd | BXor | BOr => true | _ => false end.

Definition PUSH_PRI : aop := Emit [36].
Definition POP_PRI : aop := Emit [42].
Definition POP_ALT : aop := Emit [43].

(* EmitBinaryInner (code-generator.cpp:782-835), with the left operand in PRI unless it is constant;
   [right] is EmitExpr of the right operand; [oper] = None for '='; [remat]: the left-hand side of an
   assignment can be found again without its address (value-inl.h:33-41). *)
Definition inner (oper : option binop) (remat : bool) (kl kr : option Z) (right : list aop) : list aop :=
  (match kl with
   | Some x =>
       (match kr with Some y => [Emit (const_pri y)] | None => right end) ++ [Emit (const_alt x)]
   | None =>
       let save := match oper with Some _ => true | None => negb remat end in
       match kr with
       | Some y =>
           if match oper with Some op => commutative op | None => false end then [Emit (const_alt y)]
           else (if save then [PUSH_PRI] else []) ++ [Emit (const_pri y)] ++ (if save then [POP_ALT] else [])
       | None => (if save then [PUSH_PRI] else []) ++ right ++ (if save then [POP_ALT] else [])
       end
   end) ++
  match oper with Some op => [Emit (op_code op)] | None => [] end.

(* EmitRvalue and EmitStore (code-generator.cpp:1598-1690) for cells.  A store to a global is given the
   address the label has when the store is emitted ([ga]); a load refers to the label ([glab]). *)
(* VarDeclBase::addr (compiler/parse-node.h:346) = Label::offset (compiler/label.h:80-83) of label [l] after [pre] was
   emitted, without its assertion that the label is bound. *)
Definition address_now (pre : list aop) (l : nat) : Z :=
  match Label_Model.arun pre Label_Model.fresh with
  | Label_Model.Done s => wrap32 (Label_Model.label_ToOffset (Label_Model.lab s l))
  | _ => 0
  end.

Section Gen.
Variable glab : nat -> nat.
Variable ga : nat -> Z.

Definition rvalue (l : lval) : list aop :=
  match l with
  | LVar (VLocal s) => [Emit [3; s]]
  | LVar (VGlobal g) => [EmitLabel 1 (glab g)]
  | LVar (VRef s) => [Emit [7; s]]
  | LCell _ _ _ => [Emit [9]]
  end.
Definition emit_store (l : lval) : list aop :=
  match l with
  | LVar (VLocal s) => [Emit [17; s]]
  | LVar (VGlobal g) => [Emit [15; ga g]]
  | LVar (VRef s) => [Emit [21; s]]
  | LCell _ _ _ => [Emit [23]]
  end.
Definition is_cell (l : lval) : bool := match l with LCell _ _ _ => true | LVar _ => false end.

(* smx-assembly-buffer.h:119-156: address(sym, sPRI) of an array. *)
Definition array_address (r : aref) : list aop :=
  match r with
  | AGlobal g => [EmitLabel 11 (glab g)]
  | ALocal s => [Emit [3; s]]
  end.

(* Labels of an expression: an upper bound on how many it creates. *)
Fixpoint nl (e : expr) : nat :=
  match e with
  | Num _ => 0
  | Rv l => nll l
  | Un _ a => nl a
  | Bin _ a b => nl a + nl b
  | Log _ a b => 3 + nl a + nl b
  | Chain a _ b rest => nl a + nl b + nlc rest
  | Tern c a b => 2 + nl c + nl a + nl b
  | Comma a b => nl a + nl b
  | Asg l a => nll l + nl a
  | AsgOp l _ a => nll l + nl a
  | Inc l _ _ => nll l
  end
with nll (l : lval) : nat := match l with LVar _ => 0 | LCell _ _ i => nl i end
with nlc (c : chain) : nat := match c with CEnd => 0 | CMore _ e rest => nl e + nlc rest end.

(* EmitExpr; EmitTest; and one element of the loop of EmitLogicalExprTest (code-generator.cpp:959-1028) over the
   sequence FlattenLogical makes (parse-node.cpp:71-85): operator, jump_on_true, target, fallthrough, whether the
   element is (or ends with) the last of the sequence. *)
Inductive mode := Value | Test (jot : bool) (t : nat) | Seq (op : logop) (jot : bool) (t ft : nat) (last : bool).
Definition logop_eqb (a b : logop) : bool :=
  match a, b with LOr, LOr | LAnd, LAnd => true | _, _ => false end.
Definition is_or (op : logop) : bool := match op with LOr => true | LAnd => false end.
(* code-generator.cpp:1007-1026. *)
Definition eff (m : mode) : option (bool * nat) :=
  match m with
  | Value => None
  | Test jot t => Some (jot, t)
  | Seq op jot t ft last =>
      if last then Some (jot, t)
      else match op with
           | LOr => Some (true, if jot then t else ft)
           | LAnd => Some (false, if jot then ft else t)
           end
  end.
Definition is_compare (op : binop) : bool :=
  match op with BEq | BNe | BLt | BLe | BGt | BGe => true | _ => false end.
(* code-generator.cpp:1068-1090, CmpTokenToOp 1030-1048. *)
Definition negate (op : binop) : binop :=
  match op with BLt => BGe | BGt => BLe | BGe => BLt | BLe => BGt | BEq => BNe | BNe => BEq | o => o end.
Definition cmp_jump (op : binop) : Z :=
  match op with BGe => 64 | BLe => 62 | BLt => 61 | BGt => 63 | BEq => 55 | BNe => 56 | _ => 120 end.

Fixpoint gen (m : mode) (e : expr) (n : nat) {struct e} : list aop :=
  (* code-generator.cpp:472-568 *)
  let value :=
    match konst e with
    | Some v => [Emit (const_pri v)]
    | None =>
      match e with
      | Num v => [Emit (const_pri v)]
      | Rv l => gen_lv l n ++ rvalue l
      | Un op a => gen Value a n ++ [Emit (un_code false op)]
      | Bin op a b =>                                                     (* 724-780 *)
          (match konst a with Some _ => [] | None => gen Value a n end) ++
          inner (Some op) false (konst a) (konst b) (gen Value b (n + nl a))
      | Log op a b =>                                                     (* 944-957 *)
          let jot := is_or op in
          gen (Seq op jot n (n + 2) false) a (n + 3) ++
          gen (Seq op jot n (n + 2) true) b (n + 3 + nl a) ++ [Bind (n + 2)] ++
          [Emit (const_pri (b2z (negb jot))); EmitLabel 51 (n + 1); Bind n; Emit (const_pri (b2z jot)); Bind (n + 1)]
      | Chain a op b rest =>                                              (* 1097-1121 *)
          gen Value a n ++
          inner (Some op) false (konst a) (konst b) (gen Value b (n + nl a)) ++
          gen_chain (konst b) rest (n + nl a + nl b)
      | Tern c a b =>                                                     (* 1123-1136 *)
          gen Value c (n + 2) ++ [EmitLabel 53 n] ++
          gen Value a (n + 2 + nl c) ++ [EmitLabel 51 (n + 1); Bind n] ++
          gen Value b (n + 2 + nl c + nl a) ++ [Bind (n + 1)]
      | Comma a b => gen Value a n ++ gen Value b (n + nl a)              (* 510-515 *)
      | Asg l a =>
          gen_lv l n ++ inner None (negb (is_cell l)) None (konst a) (gen Value a (n + nll l)) ++ emit_store l
      | AsgOp l op a =>
          gen_lv l n ++ (if is_cell l then [PUSH_PRI] else []) ++ rvalue l ++
          inner (Some op) false None (konst a) (gen Value a (n + nll l)) ++
          (if is_cell l then [POP_ALT] else []) ++ emit_store l
      | Inc l up pre =>                                                   (* 655-722 *)
          gen_lv l n ++ (if is_cell l then [PUSH_PRI] else []) ++ rvalue l ++
          (if pre then [PUSH_PRI] else []) ++ [Emit [if up then 107 else 112]] ++
          (if is_cell l then [POP_ALT] else []) ++
          (if pre then (if is_cell l then [Emit [132]] else []) ++ emit_store l ++ [POP_PRI] else emit_store l)
      end
    end in
  let jump jot t := [EmitLabel (if jot : bool then 54 else 53) t] in
  match
    match m, e with
    | Seq op jot t ft last, Log op' a b =>
        if logop_eqb op op' then
          Some (gen (Seq op jot t ft false) a n ++ gen (Seq op jot t ft last) b (n + nl a))
        else None
    | _, _ => None
    end
  with
  | Some code => code
  | None =>
    match eff m with
    | None => value
    | Some (jot, t) =>
      (* code-generator.cpp:570-603 *)
      match e with
      | Log op a b => gen (Seq op jot t n false) a (n + 3) ++ gen (Seq op jot t n true) b (n + 3 + nl a) ++ [Bind n]
      | Un UNot a => gen (Test (negb jot) t) a n                          (* 642-653 *)
      | Bin op a b =>                                                     (* 1050-1095 *)
          if is_compare op then
            gen Value a n ++ [PUSH_PRI] ++ gen Value b (n + nl a) ++ [POP_ALT; Emit [35]] ++
            [EmitLabel (cmp_jump (if jot then op else negate op)) t]
          else value ++ jump jot t
      | Comma a b => gen Value a n ++ gen (Test jot t) b (n + nl a)
      | _ => value ++ jump jot t
      end
    end
  end
(* The address of an lvalue, when it has one: EmitIndexExpr (code-generator.cpp:1155-1207) for cells. *)
with gen_lv (l : lval) (n : nat) {struct l} : list aop :=
  match l with
  | LVar _ => []
  | LCell r size i =>
      array_address r ++
      match konst i with
      | Some v => if v =? 0 then [] else [Emit [87; wrap32 (v * 4)]]
      | None =>
          [PUSH_PRI] ++ gen Value i n ++
          [Emit [121; if size =? 0 then 2147483647 else wrap32 (size - 1)]; POP_ALT; Emit [27]]
      end
  end
(* The links of a chained comparison after the first (code-generator.cpp:1103-1120); relop_prefix and
   relop_suffix, smx-assembly-buffer.h:104-112. *)
with gen_chain (kl : option Z) (c : chain) (n : nat) {struct c} : list aop :=
  match c with
  | CEnd => []
  | CMore op e rest =>
      [PUSH_PRI; Emit [33]] ++ inner (Some op) false kl (konst e) (gen Value e n) ++
      [Emit [132]; Emit [81]; POP_ALT] ++ gen_chain (konst e) rest (n + nl e)
  end.
End Gen.

(* What semantic analysis lets through, for literals that fit a cell: no division by zero between constants
   (calc reports it) and no INT_MIN / -1 or out-of-range shift between constants (the compiler's own behaviour
   is undefined there: C27); constant indices within the size (semantics.cpp:1441-1461); only ordering
   operators in chains (parser.cpp:745-768); arithmetic operators in compound assignments. *)
Definition ordering (op : binop) : bool := match op with BLt | BLe | BGt | BGe => true | _ => false end.
Fixpoint accepted (e : expr) : Prop :=
  match e with
  | Num v => is_i32 v
  | Rv l => accepted_l l
  | Un _ a => accepted a
  | Bin op a b =>
      accepted a /\ accepted b /\
      match konst a, konst b with
      | Some x, Some y => exists v, calc false op x y = Folded v
      | _, _ => True
      end
  | Log _ a b => accepted a /\ accepted b
  | Chain a op b rest => ordering op = true /\ accepted a /\ accepted b /\ accepted_c rest
  | Tern c a b => accepted c /\ accepted a /\ accepted b
  | Comma a b => accepted a /\ accepted b
  | Asg l a => accepted_l l /\ accepted a
  | AsgOp l op a => is_compare op = false /\ accepted_l l /\ accepted a
  | Inc l _ _ => accepted_l l
  end
with accepted_l (l : lval) : Prop :=
  match l with
  | LVar _ => True
  | LCell _ size i =>
      0 <= size /\ is_i32 size /\ accepted i /\
      match konst i with Some v => 0 <= v /\ (size = 0 \/ v < size) | None => True end
  end
with accepted_c (c : chain) : Prop :=
  match c with
  | CEnd => True
  | CMore op e rest => ordering op = true /\ accepted e /\ accepted_c rest
  end.
