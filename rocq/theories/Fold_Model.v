(* Constant folding in the compiler (/repo/compiler/expressions.cpp, semantics.cpp) and the code
   it replaces (code-generator.cpp). Cells are int32_t (compiler/types.h:35). *)
From Verif Require Import Base Rt_Model Interp_Model.

(* Binary operator tokens that NormalizeBinaryToken (semantics-inl.h:29-66) leaves: everything
   GetInt32BinaryOp accepts (code-generator.cpp:858-880). *)
Inductive binop :=
| BMul | BDiv | BMod | BAdd | BSub | BShl | BSshr | BShr | BAnd | BXor | BOr
| BEq | BNe | BLt | BLe | BGt | BGe.
Inductive unop := UInv | UNot | UNeg.
Inductive logop := LOr | LAnd.

(* What folding produces. *)
Inductive fold :=
| Folded (v : Z)
| Reported (n : Z)      (* report(n): compilation fails *)
| NotConst              (* left for run time *)
| Trap                  (* undefined in C++: overflow, shift out of range, INT_MIN / -1 *)
| Uninit.               (* reads a variable that was never set *)

(* int32_t arithmetic; [strict] as in the interpreter (Interp_Model.sarith). *)
Definition carith (strict : bool) (z : Z) : fold :=
  if is_i32b z then Folded z else if strict then Trap else Folded (wrap32 z).
Definition cshift (n : Z) (v : Z) : fold :=
  if (0 <=? n) && (n <? 32) then Folded v else Trap.

(* expressions.cpp:350-403: calc. *)
Definition calc (strict : bool) (op : binop) (l r : Z) : fold :=
  match op with
  | BOr => Folded (Z.lor l r)
  | BXor => Folded (Z.lxor l r)
  | BAnd => Folded (Z.land l r)
  | BEq => Folded (b2z (l =? r))
  | BNe => Folded (b2z (negb (l =? r)))
  | BSshr => cshift r (Z.shiftr l r)
  | BShr => cshift r (wrap32 (Z.shiftr (u32 l) r))
  | BShl => cshift r (wrap32 (Z.shiftl (u32 l) r))
  | BAdd => carith strict (l + r)
  | BSub => carith strict (l - r)
  | BMul => carith strict (l * r)
  | BDiv => if r =? 0 then Reported 29
            else if (l =? - two31) && (r =? -1) then Trap else Folded (Z.quot l r)
  | BMod => if r =? 0 then Reported 29
            else if (l =? - two31) && (r =? -1) then Trap else Folded (Z.rem l r)
  | BLt => Folded (b2z (l <? r))
  | BGt => Folded (b2z (l >? r))
  | BGe => Folded (b2z (l >=? r))
  | BLe => Folded (b2z (l <=? r))
  end.

(* semantics.cpp:953-1015: BinaryExpr::FoldToConstant, both operands constant and int or enum. *)
Definition FoldToConstant (strict : bool) (op : binop) (l r : Z) : fold :=
  match op with
  | BMul => carith strict (l * r)
  | BDiv => if r =? 0 then Reported 93
            else if (l =? - two31) && (r =? -1) then Reported 97 else Folded (Z.quot l r)
  | BMod => if r =? 0 then Reported 93
            else if (l =? - two31) && (r =? -1) then Reported 97 else Folded (Z.rem l r)
  | BAdd => carith strict (l + r)
  | BSub => carith strict (l - r)
  | BShl => cshift r (wrap32 (Z.shiftl l r))
  | BSshr => cshift r (Z.shiftr l r)
  | BShr => cshift r (wrap32 (Z.shiftr (u32 l) r))
  | BAnd => Folded (Z.land l r)
  | BXor => Folded (Z.lxor l r)
  | BOr => Folded (Z.lor l r)
  | _ => NotConst
  end.

(* semantics.cpp:540-555: CheckUnaryExpr on a constant that is not a float ('!' is the same for floats:
   it looks at the cell). *)
Definition fold_unary (strict : bool) (op : unop) (v : Z) : fold :=
  match op with
  | UInv => Folded (Z.lnot v)
  | UNot => Folded (b2z (v =? 0))
  | UNeg => carith strict (- v)
  end.

(* semantics.cpp:1039-1046: CheckLogicalExpr on two constants. *)
Definition fold_logical (op : logop) (l r : Z) : Z :=
  match op with
  | LOr => b2z (negb (l =? 0) || negb (r =? 0))
  | LAnd => b2z (negb (l =? 0) && negb (r =? 0))
  end.

(* semantics.cpp:1096-1113: one link of CheckChainedCompareExpr, and the whole chain when every
   operand is constant. The cells are compared as integers whatever their type. *)
Definition link (op : binop) (l r : Z) : bool :=
  match op with
  | BLe => l <=? r | BGe => l >=? r | BGt => l >? r | BLt => l <? r
  | _ => true
  end.
Fixpoint fold_chain (acc : bool) (l : Z) (ops : list (binop * Z)) : Z :=
  match ops with
  | [] => b2z acc
  | (op, r) :: rest => fold_chain (acc && link op l r) r rest
  end.

(* semantics.cpp:1170-1182: TernaryExpr::FoldToConstant. The second test lacks the negation the other
   two have: [left] is set exactly when the function returns false. *)
Definition fold_ternary (cond second third : option Z) : fold :=
  match cond with
  | None => NotConst
  | Some c =>
    match second with
    | Some _ => NotConst
    | None =>
      match third with
      | None => NotConst
      | Some r => if c =? 0 then Folded r else Uninit
      end
    end
  end.

(* What would be emitted instead. code-generator.cpp:915-941: EmitBinaryOp for 32-bit integers, with
   GetInt32BinaryOp (858-880). *)
Definition swaps (op : binop) : bool :=
  match op with BLe | BGe | BLt | BGt | BShl | BSshr | BShr => true | _ => false end.
Definition int32_op (op : binop) : Z :=
  match op with
  | BMul => 72 | BDiv => 75 | BMod => 76 | BAdd => 78 | BSub => 80 | BShl => 65 | BSshr => 67 | BShr => 66
  | BAnd => 81 | BXor => 83 | BOr => 82 | BEq => 95 | BNe => 96 | BGt => 103 | BGe => 104 | BLt => 101
  | BLe => 102
  end.
Definition op_code (op : binop) : list Z := (if swaps op then [35] else []) ++ [int32_op op].
(* code-generator.cpp:837-855: GetFloatBinaryOp. *)
Definition float_op (op : binop) : option Z :=
  match op with
  | BMul => Some 175 | BDiv => Some 176 | BMod => Some 186 | BAdd => Some 177 | BSub => Some 178
  | BEq => Some 179 | BNe => Some 180 | BGt => Some 183 | BGe => Some 184 | BLt => Some 181 | BLe => Some 182
  | _ => None
  end.
(* smx-assembly-buffer.h: const_pri, const_alt. *)
Definition const_pri (v : Z) : list Z := if v =? 0 then [89] else [11; v].
Definition const_alt (v : Z) : list Z := if v =? 0 then [90] else [12; v].
(* code-generator.cpp:788-793: EmitBinaryInner with both operands constant. *)
Definition const_operands (l r : Z) : list Z := const_pri r ++ const_alt l.
(* code-generator.cpp:605-640: EmitUnary; [f]: the operand is a float. *)
Definition un_code (f : bool) (op : unop) : list Z :=
  match op with
  | UInv => [86]
  | UNot => (if f then [173] else []) ++ [84]
  | UNeg => if f then [174] else [85]
  end.
