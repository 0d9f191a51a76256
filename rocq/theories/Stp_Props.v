(* C48: statements nest as they are written. *)
From Verif Require Import Base Par_Model Par_Spec Par_Cases Stp_Model Stp_Spec Stp_Complete Stp_Whole Stp_Cases.

(* Reading a statement always comes to an end. *)
Theorem C48_reading_ends : forall ns str decl loop ts, read_statement ns str decl loop ts <> PFuel.
Proof. exact statement_total. Qed.
Print Assumptions C48_reading_ends.

(* What is read is in the grammar, and is what stood at the front of the text.  (Exit statements are apart, see below.) *)
Theorem C48_only_the_grammar_partial : forall ns str decl loop ts s rest, no_exit ts -> read_statement ns str decl loop ts = PGood s rest ->
  exists l, ts = l ++ rest /\ states ns str false decl loop l s rest.
Proof. exact statement_sound. Qed.
Print Assumptions C48_only_the_grammar_partial.

(* Every statement of the grammar is read, whole. *)
Theorem C48_all_of_the_grammar : forall ns str decl loop l s rest, states ns str true decl loop l s rest -> read_statement ns str decl loop (l ++ rest) = PGood s rest.
Proof. exact statement_complete. Qed.
Print Assumptions C48_all_of_the_grammar.
Example C48_all_of_the_grammar_met : states true no_string true true false text2 tree2 [pn PRBrace].
Proof. exact text2_grammar. Qed.

(* When semicolons are required the two agree: a statement is read exactly if it is in the grammar. *)
Theorem C48_exactly_the_grammar_partial : forall ns, ns = true -> forall str decl loop ts s rest, no_exit ts ->
  read_statement ns str decl loop ts = PGood s rest <-> exists l, ts = l ++ rest /\ states ns str false decl loop l s rest.
Proof. exact (fun ns N str => required_iff ns str N). Qed.
Print Assumptions C48_exactly_the_grammar_partial.
Example C48_exactly_the_grammar_met : no_exit (text2 ++ [pn PRBrace]) /\ read_statement true no_string true false (text2 ++ [pn PRBrace]) = PGood tree2 [pn PRBrace].
Proof. exact (conj text2_no_exit text2_read). Qed.

(* A text begins with one statement only. *)
Theorem C48_one_reading : forall ns str decl loop l1 s1 r1 l2 s2 r2,
  states ns str true decl loop l1 s1 r1 -> states ns str true decl loop l2 s2 r2 -> l1 ++ r1 = l2 ++ r2 -> l1 = l2 /\ s1 = s2.
Proof. exact statement_one. Qed.
Print Assumptions C48_one_reading.

(* An else belongs to the nearest if. *)
Theorem C48_else_nearest : forall ns str d p k1 lc1 c1 k2 lc2 c2 l1 a ke l2 b rest,
  kw_tok KIf k1 -> kw_tok KIf k2 -> kw_tok KElse ke -> parenthesised ns true lc1 c1 -> parenthesised ns true lc2 c2 ->
  states ns str true false p l1 a (ke :: l2 ++ rest) -> states ns str true false p l2 b rest -> first (fun x => ~ kw_tok KElse x) rest ->
  read_statement ns str d p ((k1 :: lc1 ++ k2 :: lc2 ++ l1 ++ ke :: l2) ++ rest) = PGood (SIf c1 (SIf c2 a (Some b)) None) rest.
Proof. exact else_nearest. Qed.
Print Assumptions C48_else_nearest.
Example C48_else_nearest_met : parenthesised true true (paren1 1) (ELit 1) /\ forall v d p rest, states true no_string true d p [tok (Lit v); pn PSemi] (SExpr (ELit v)) rest.
Proof. exact (conj (paren1_read 1) line_read). Qed.

(* Outside a loop no break or continue is accepted but inside the loops of the statement itself. *)
Theorem C48_jumps_in_loops_partial : forall ns str decl ts s rest, no_exit ts -> read_statement ns str decl false ts = PGood s rest -> jumps s = false.
Proof. exact read_no_jumps. Qed.
Print Assumptions C48_jumps_in_loops_partial.

(* A declaration stands only where its scope is a block or a for loop: never as the body of a branch, loop or case. *)
Theorem C48_declarations_in_blocks_partial : forall ns str decl loop ts s rest, no_exit ts -> read_statement ns str decl loop ts = PGood s rest ->
  (decl = false -> decl_stmt s = false) /\ bare s = false.
Proof. exact read_no_bare. Qed.
Print Assumptions C48_declarations_in_blocks_partial.

(* exit 1; is read as exit and then a statement 1;  and  exit; f();  takes the call for the value of the exit. *)
Theorem C48_exit_refuted :
  read_statement true no_string true false exit_value = PGood (SExit None) [tok (Lit 1); pn PSemi] /\
  read_statement true no_string true false exit_call = PGood (SExit (Some (ECall (ESym 9) []))) [].
Proof. exact exit_cases. Qed.
Print Assumptions C48_exit_refuted.

(* With optional semicolons two lines that are statements apart can be one declaration together. *)
Theorem C48_line_end_refuted : exists a b,
  read_statement false no_string true false [a] = PGood (SExpr (ESym 1)) [] /\ read_statement false no_string true false [b] = PGood (SExpr (ESym 2)) [] /\
  bol b = true /\ read_statement false no_string true false [a; b] = PGood (SDecl 1 [(2, None)]) [].
Proof. exact two_lines. Qed.
Print Assumptions C48_line_end_refuted.
