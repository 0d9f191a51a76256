(* C47: expressions are read as the table of operators says. *)
From Verif Require Import Base Par_Model Par_Spec Par_Complete Par_Whole Par_Cases.

(* Reading an expression always comes to an end. *)
Theorem C47_reading_ends : forall ns t ts, expression ns t ts <> PFuel.
Proof. exact expression_total. Qed.
Print Assumptions C47_reading_ends.

(* What is read is in the grammar, and is what stood at the front of the text. *)
Theorem C47_only_the_grammar : forall ns t ts e rest, expression ns t ts = PGood e rest -> exists l, ts = l ++ rest /\ reads ns t 12 l e.
Proof. exact expression_sound. Qed.
Print Assumptions C47_only_the_grammar.

(* Everything in the grammar is read, whole, when what follows cannot continue it. *)
Theorem C47_all_of_the_grammar : forall ns t l e rest, reads ns t 12 l e -> ends ns t 12 rest -> expression ns t (l ++ rest) = PGood e rest.
Proof. exact expression_complete. Qed.
Print Assumptions C47_all_of_the_grammar.
Example C47_all_of_the_grammar_met : reads true true 12 text1 tree1 /\ ends true true 12 [semi].
Proof. exact (conj text1_grammar I). Qed.

(* A text has one reading. *)
Theorem C47_one_reading : forall ns t l a b, reads ns t 12 l a -> reads ns t 12 l b -> a = b.
Proof. exact unambiguous. Qed.
Print Assumptions C47_one_reading.

(* Of two operators the one that binds tighter is applied first, and of equals the left one; comparisons make a chain. *)
Theorem C47_precedence : forall ns t op1 op2 p1 p2 k1 k2 la a lb b lc c rest,
  prec op1 = Some p1 -> prec op2 = Some p2 -> kind k1 = P op1 -> kind k2 = P op2 ->
  reads ns t 0 la a -> reads ns t 0 lb b -> reads ns t 0 lc c -> ends ns t 12 rest ->
  expression ns t ((la ++ k1 :: lb ++ k2 :: lc) ++ rest) =
    PGood (if (p1 =? 7)%nat && (p2 =? 7)%nat then EChain a [(op1, b); (op2, c)]
           else if (p1 <=? p2)%nat then join op2 (join op1 a b) c else join op1 a (join op2 b c)) rest.
Proof. exact two_ops. Qed.
Print Assumptions C47_precedence.

(* Assignments and conditional operators group to the right. *)
Theorem C47_assignment_right : forall ns t o1 o2 k1 k2 la a lb b lc c rest, kind k1 = P (PAsg o1) -> kind k2 = P (PAsg o2) ->
  reads ns t 0 la a -> reads ns t 0 lb b -> reads ns t 0 lc c -> ends ns t 12 rest ->
  expression ns t ((la ++ k1 :: lb ++ k2 :: lc) ++ rest) = PGood (EAssign o1 a (EAssign o2 b c)) rest.
Proof. exact assign_right. Qed.
Print Assumptions C47_assignment_right.
Theorem C47_conditional_right : forall ns t q1 q2 c1 c2 g1 g2 la a lb b lc c ld d le e rest,
  kind q1 = P PQuestion -> kind q2 = P PQuestion -> kind c1 = Colon g1 -> kind c2 = Colon g2 ->
  reads ns t 0 la a -> reads ns false 0 lb b -> reads ns t 0 lc c -> reads ns false 0 ld d -> reads ns t 0 le e -> ends ns t 12 rest ->
  expression ns t ((la ++ q1 :: lb ++ c1 :: lc ++ q2 :: ld ++ c2 :: le) ++ rest) = PGood (ETernary a b (ETernary c d e)) rest.
Proof. exact ternary_right. Qed.
Print Assumptions C47_conditional_right.

(* The name of a default argument passed by name is not kept: f(.b = _) and f(.c = _) are f(_). *)
Theorem C47_named_default_refuted : exists a b, a <> b /\ expression true true (call_default a) = PGood (ECall (ESym 1) [ADefault]) [semi] /\
  expression true true (call_default a) = expression true true (call_default b) /\
  expression true true (call_default a) = expression true true [tok (Sym 1); tok (P PLPar); tok Under; tok (P PRPar); semi].
Proof. exact default_name_lost. Qed.
Print Assumptions C47_named_default_refuted.

(* Not everything that can be read as an operand can stand in sizeof(...): not what begins with a parenthesis. *)
Theorem C47_sizeof_parentheses_refuted : exists l e, reads true true 0 l e /\
  expression true true (tok Sizeof :: tok (P PLPar) :: l ++ [tok (P PRPar); semi]) = PBad /\ expression true true (l ++ [semi]) = PGood e [semi].
Proof. exact sizeof_parens. Qed.
Print Assumptions C47_sizeof_parentheses_refuted.
