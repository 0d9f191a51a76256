(* The code of a call: compiler/code-generator.cpp:1267-1352 and 2033-2053, compiler/smx-assembly-buffer.h:119-156.  Results that
   are arrays, arguments of 64 bits, and strings and array literals are left out.  A default value is its number. *)
From Verif Require Import Base Gen_Model.
From Verif Require Label_Model.

(* An argument: a value, a variable or array cell passed by reference, an array, and a value passed for "...", by the address of a
   temporary in frame slot [slot]. *)
Inductive arg := ByValue (e : expr) | ByRef (l : lval) | Whole (r : aref) | Temp (e : expr) (slot : Z).
Definition nla (a : arg) : nat := match a with ByValue e | Temp e _ => nl e | ByRef l => nll l | Whole _ => 0 end.
Fixpoint nls (es : list arg) : nat := match es with [] => 0 | e :: r => nls r + nla e end.
Section Emit.
Variable glab : nat -> nat.
Variable ga : nat -> Z.
(* smx-assembly-buffer.h:123-156, for a variable. *)
Definition var_address (l : lval) : list aop :=
  match l with
  | LVar (VLocal s) => [Emit [13; s]]
  | LVar (VGlobal g) => [EmitLabel 11 (glab g)]
  | LVar (VRef s) => [Emit [3; s]]
  | LCell _ _ _ => []                            (* its address is what EmitIndexExpr leaves *)
  end.
(* code-generator.cpp:1274-1338. *)
Definition emit_arg (a : arg) (n : nat) : list aop :=
  match a with
  | ByValue e => gen glab ga Value e n
  | ByRef l => gen_lv glab ga l n ++ var_address l
  | Whole r => array_address glab r
  | Temp e s => gen glab ga Value e n ++ [Emit [17; s]] ++ [Emit [13; s]]
  end.
(* 1271-1341: from the last argument to the first; each is evaluated and pushed. *)
Fixpoint push_args (es : list arg) (n : nat) : list aop :=
  match es with
  | [] => []
  | e :: r => push_args r n ++ emit_arg e (n + nls r) ++ [PUSH_PRI]
  end.
(* OP_PUSH_C is 39, OP_CALL is 49; [f] is the label of the function. *)
Definition call_code (es : list arg) (n f : nat) : list aop :=
  push_args es n ++ [Emit [39; Z.of_nat (length es)]; EmitLabel 49 f].
(* OP_SYSREQ_N is 135; the label of a native is bound to its number (code-generator.cpp:2036-2041). *)
Definition native_code (es : list arg) (n f : nat) : list aop :=
  push_args es n ++ [Label_Model.SysReqN 135 f (Z.of_nat (length es))].
End Emit.
