(* Worked expressions.  C47. *)
From Verif Require Import Base Par_Model Par_Spec Par_Proofs Par_Complete Par_Whole.

Definition tok (k : tk) : token := mkTok k false.
Definition newline (k : tk) : token := mkTok k true.
Definition semi : token := tok (P PSemi).

(* x = a[i] + -f(.n = b, .m = _) * 2 < c && !d ? Tag:e : g++ ; *)
Definition text1 : list token :=
  [tok (Sym 1); tok (P (PAsg ASet)); tok (Sym 2); tok (P PLBrk); tok (Sym 3); tok (P PRBrk); tok (P PPlus); tok (P PMinus); tok (Sym 4); tok (P PLPar);
   tok (P PDot); tok (Sym 5); tok (P (PAsg ASet)); tok (Sym 6); tok (P PComma); tok (P PDot); tok (Sym 7); tok (P (PAsg ASet)); tok Under; tok (P PRPar);
   tok (P PStar); tok (Lit 2); tok (P PLess); tok (Sym 8); tok (P PAnd); tok (P PBang); tok (Sym 9); tok (P PQuestion); tok (Sym 10); tok (Colon true);
   tok (Sym 11); tok (P PInc)].
Definition tree1 : expr :=
  EAssign ASet (ESym 1)
    (ETernary
       (ELogic PAnd
          (EBin PLess (EBin PPlus (EIndex (ESym 2) (Some (ESym 3))) (EBin PStar (EUnary PMinus (ECall (ESym 4) [ANamed 5 (ESym 6); ADefault])) (ELit 2))) (ESym 8))
          (EUnary PBang (ESym 9)))
       (ESym 10) (EPostInc PInc (ESym 11))).
Lemma text1_reads : expression true true (text1 ++ [semi]) = PGood tree1 [semi].
Proof. vm_compute. reflexivity. Qed.
Lemma text1_grammar : reads true true 12 text1 tree1.
Proof. apply (proj1 (expression_iff true true text1 tree1 semi [] eq_refl)). exact text1_reads. Qed.

(* Grouping in full: a < b == c | d & e, read as (a < b) == ... is not how C does it: & and | bind tighter than comparisons. *)
Lemma bits_bind_tighter : expression true true [tok (Sym 1); tok (P PAmp); tok (Sym 2); tok (P PEq); tok (Lit 0); semi] = PGood (EBin PEq (EBin PAmp (ESym 1) (ESym 2)) (ELit 0)) [semi].
Proof. vm_compute. reflexivity. Qed.

(* f(.b = _) and f(.c = _) read the same: the name is lost. *)
Definition call_default (s : Z) : list token := [tok (Sym 1); tok (P PLPar); tok (P PDot); tok (Sym s); tok (P (PAsg ASet)); tok Under; tok (P PRPar); semi].
Lemma default_name_lost : exists a b, a <> b /\ expression true true (call_default a) = PGood (ECall (ESym 1) [ADefault]) [semi] /\
  expression true true (call_default a) = expression true true (call_default b) /\
  expression true true (call_default a) = expression true true [tok (Sym 1); tok (P PLPar); tok Under; tok (P PRPar); semi].
Proof. exists 5, 6. split; [discriminate|]. vm_compute. auto. Qed.

(* sizeof((a)[0]) is refused, sizeof(a[0]) is not. *)
Lemma sizeof_parens : exists l e, reads true true 0 l e /\
  expression true true (tok Sizeof :: tok (P PLPar) :: l ++ [tok (P PRPar); semi]) = PBad /\ expression true true (l ++ [semi]) = PGood e [semi].
Proof.
  exists [tok (P PLPar); tok (Sym 1); tok (P PRPar); tok (P PLBrk); tok (Lit 0); tok (P PRBrk)], (EIndex (ESym 1) (Some (ELit 0))).
  split; [|split; vm_compute; reflexivity]. apply r_operand.
  apply (o_index true true false [tok (P PLPar); tok (Sym 1); tok (P PRPar)] (ESym 1) (tok (P PLBrk)) [tok (Lit 0)] (ELit 0) (tok (P PRBrk))); try reflexivity.
  - apply (o_paren true true false (tok (P PLPar)) [tok (Sym 1)] (ESym 1) (tok (P PRPar))); try reflexivity.
    apply (up true true _ _ 0); [|split; repeat constructor]. apply r_operand. now apply o_sym.
  - apply (up true true _ _ 0); [|split; repeat constructor]. apply r_operand. now apply o_lit.
Qed.

(* Without required semicolons a ++ on the next line begins the next statement; a ( or [ does not. *)
Lemma newline_step : expression false true [tok (Sym 1); newline (P PInc); tok (Sym 2)] = PGood (ESym 1) [newline (P PInc); tok (Sym 2)].
Proof. vm_compute. reflexivity. Qed.
Lemma newline_paren : expression false true [tok (Sym 1); newline (P PLPar); tok (Sym 2); tok (P PRPar)] = PGood (ECall (ESym 1) [AExpr (ESym 2)]) [].
Proof. vm_compute. reflexivity. Qed.
