(* C50: a macro call stands for the macro's text with the arguments put in. *)
From Coq Require String. Import String.StringSyntax.
From Verif Require Import Base Mac_Model Mac_Spec Mac_Proofs Mac_Expand Mac_Gaps Mac_Cases.
Local Open Scope string_scope.
Local Open Scope Z_scope.

(* A macro defined by a plain text (one line, no comments, no doubled backslash in a literal) and called with plain arguments: the text
   kept is the one written, the arguments read are those written, and what the call is replaced by is the text with every parameter outside
   literals replaced by its argument. *)
Theorem C50_macro_call_partial : forall w1 core w2 nl more params args rest,
  blank w1 -> blank w2 -> is_newline nl = true -> trimmed core -> tidy None core = true ->
  length params = length args -> Forall (fun a => argument false 0 a = true) args ->
  let al := combine params (map drop_spaces args) in Forall (supplied al) (pieces None core) ->
  exists ps, skim_line true (w1 ++ core ++ w2 ++ nl :: more) = Skimmed core ps (nl :: more) /\
    read_args params (call_text args ++ rest) = Some (al, rest) /\ substitute core al ps 0 = Some (render al (pieces None core)).
Proof. exact macro_call. Qed.
Print Assumptions C50_macro_call_partial.
Example C50_macro_call_met : blank [32; 32] /\ (trimmed body /\ tidy None body = true /\ Forall (fun a => argument false 0 a = true) [arg1; arg2]) /\
  Forall (supplied (combine [1; 2] (map drop_spaces [arg1; arg2]))) (pieces None body) /\ render (combine [1; 2] (map drop_spaces [arg1; arg2])) (pieces None body) = expanded.
Proof. exact (conj blank2 (conj body_ok (conj body_supplied body_expanded))). Qed.

(* Comments and continued lines in a macro's text stand for one blank; parameters are found all the same. *)
Theorem C50_text_with_comments : forall parts w1 core w2 nl more, Forall part_ok parts -> blank w1 -> blank w2 -> is_newline nl = true ->
  core <> [] -> trimmed core -> tidy None core = true ->
  let text := joined [] parts core in
  exists ps, skim_line true (glue parts (w1 ++ core ++ w2) ++ nl :: more) = Skimmed text ps (nl :: more) /\
    forall al, Forall (supplied al) (pieces None text) -> substitute text al ps 0 = Some (render al (pieces None text)).
Proof. exact text_with_gaps. Qed.
Print Assumptions C50_text_with_comments.
Example C50_text_with_comments_met : Forall part_ok some_parts /\ some_end <> [] /\ trimmed some_end /\ tidy None some_end = true /\
  joined [] some_parts some_end = bytes "f(%1, %2) + %1".
Proof. exact some_parts_ok. Qed.
(* So they do in an argument; commas in comments do not end it. *)
Theorem C50_argument_with_comments : forall parts final t, argument_parts 0 parts final -> look t = comma \/ look t = rparen ->
  skim_argument (glue parts final ++ t) = Some (joined [] parts final, t).
Proof. exact argument_with_gaps. Qed.
Print Assumptions C50_argument_with_comments.
Example C50_argument_with_comments_met : argument_parts 0 arg_text (bytes " 2)") /\ joined [] arg_text (bytes " 2)") = bytes "x + (1, 2)".
Proof. exact arg_text_ok. Qed.

(* Expansion of macros within macros comes to an end, whatever the macros are, and gives the expansion in which a macro is left alone within
   its own text. *)
Theorem C50_expansion_ends : forall call macros, (forall m ts r, call m ts = Some r -> In m macros) ->
  (forall m ts text rest, call m ts = Some (text, rest) -> (length rest <= length ts)%nat) ->
  forall text, exists fuel out, expand call fuel [(None, text)] [] = Some out /\ expands call [] text out.
Proof. exact expansion_ends. Qed.
Print Assumptions C50_expansion_ends.
Example C50_expansion_met : (forall m ts r, table m ts = Some r -> In m [1; 2]) /\
  (forall m ts text rest, table m ts = Some (text, rest) -> (length rest <= length ts)%nat) /\
  expand table 100 [(None, [2; 1; 100; 2; 101])] [] = Some [2; 3; 7; 2; 3; 8].
Proof. exact (conj table_known (conj table_less table_expanded)). Qed.
Theorem C50_one_expansion : forall call used ts o1, expands call used ts o1 -> forall o2, expands call used ts o2 -> o1 = o2.
Proof. exact expands_one. Qed.
Print Assumptions C50_one_expansion.

(* A macro whose text is a string of one backslash takes the next line of the source into its text. *)
Theorem C50_backslash_string_refuted : skim_line false two_lines = Skimmed (bytes """\\""" ++ nl ++ bytes "int x;") [] nl.
Proof. exact two_lines_taken. Qed.
Print Assumptions C50_backslash_string_refuted.
(* So does any text with one apostrophe, as in a message for #pragma deprecated or #error. *)
Theorem C50_apostrophe_refuted : skim_line false deprecated = Skimmed (bytes "Doesn't work" ++ nl ++ bytes "native bool F();") [] nl.
Proof. exact deprecated_taken. Qed.
Print Assumptions C50_apostrophe_refuted.
(* After a string of one backslash a parameter is not seen. *)
Theorem C50_parameter_lost_refuted : skim_line true (param_lost ++ nl) = Skimmed param_lost [] nl /\ In (Param 1) (pieces None param_lost).
Proof. exact param_lost_text. Qed.
Print Assumptions C50_parameter_lost_refuted.
(* A comma after an escaped quote in a string, or as a character, ends the argument. *)
Theorem C50_argument_refuted : skim_argument (bytes """\"","", 2)") = Some (bytes """\""", bytes ","", 2)") /\ skim_argument (bytes "',', 2)") = Some (bytes "'", bytes ",', 2)").
Proof. exact (conj string_argument char_argument). Qed.
Print Assumptions C50_argument_refuted.
(* Before a parameter that is not declared the sign # is dropped. *)
Theorem C50_hash_refuted : substitute (bytes "#%2") [] [1%nat] 0 = Some (bytes "%2").
Proof. exact hash_lost. Qed.
Print Assumptions C50_hash_refuted.
(* A call of a macro in an argument of the same macro is not expanded. *)
Theorem C50_own_argument_refuted : expand table 100 [(None, [1; 100; 1; 100; 5; 101; 101])] [] = Some [7; 1; 100; 5; 101; 8].
Proof. exact own_argument. Qed.
Print Assumptions C50_own_argument_refuted.
