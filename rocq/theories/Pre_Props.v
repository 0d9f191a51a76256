(* C49: of the conditional sections of a source text, exactly the selected ones are compiled. *)
From Verif Require Import Base Pre_Model Pre_Spec Pre_Proofs Pre_Nesting Pre_Cases.

(* Properly nested text: of each group the first branch whose condition holds is compiled, else the #else branch; no other line is, no
   other condition is evaluated, an included file's lines stand in its place, and an #endinput ends the file it is in. *)
Theorem C49_selected_sections : forall T C E (perform : T -> E -> E) (eval : C -> E -> bool * bool) (l : list (item T C)) (e : E),
  let m := meaning perform eval l e in
  exists st stop, run_main perform eval (written l) e = Went st stop /\ env st = s_env m /\ kept st = s_kept m /\
    errs st = s_errs m ++ (match s_halt m with EndedInside => [EUnclosed] | _ => [] end).
Proof. exact selected. Qed.
Print Assumptions C49_selected_sections.
Example C49_selected_sections_met : meaning define defined program [] = mkSel [1; 2] [2; 1; 101; 104; 105; 109] [] Full.
Proof. exact program_meaning. Qed.

(* In one file: an #else, #elseif or #endif with no #if, or an #if left open, is reported exactly if there is one. *)
Theorem C49_nesting_reported : forall T C E (perform : T -> E -> E) (eval : C -> E -> bool * bool) (f : list (line T C)) e, Forall plain f ->
  exists st s, run_main perform eval f e = Went st s /\ (~ In ENoIf (errs st) /\ ~ In EUnclosed (errs st) <-> depth f 0 = Some O).
Proof. exact nesting_reported. Qed.
Print Assumptions C49_nesting_reported.
Example C49_nesting_reported_met : Forall plain nested /\ depth nested 0 = Some O.
Proof. exact nested_plain. Qed.

(* No text fails an assertion or reads past the stack of open sections, if the files included keep to their own sections. *)
Theorem C49_no_breakdown_partial : forall T C E (perform : T -> E -> E) (eval : C -> E -> bool * bool) (f : list (line T C)) e,
  forallb own_sections f = true -> run_main perform eval f e <> Broken.
Proof. exact sound_footing. Qed.
Print Assumptions C49_no_breakdown_partial.
Example C49_no_breakdown_met : forallb own_sections (written program) = true.
Proof. exact program_own. Qed.

(* An included file that closes or turns a section of the including one fails an assertion. *)
Theorem C49_included_endif_refuted :
  run_main define defined [LIf 1; LInclude [LEndif]] [1] = Broken /\ run_main define defined [LIf 1; LInclude [LElse]; LEndif] [1] = Broken.
Proof. exact footing_lost. Qed.
Print Assumptions C49_included_endif_refuted.

(* A second #else, and an #elseif after it, pass without a word when a branch before them was taken and an #elseif followed it. *)
Theorem C49_second_else_refuted : run_main define defined two_elses [1] = Went (mkPst [] 0 false [1] [101] []) false.
Proof. exact two_elses_silent. Qed.
Print Assumptions C49_second_else_refuted.

(* An included file may leave an #if open: the rest of it is not compiled and nothing is reported. *)
Theorem C49_open_include_refuted : run_main define defined open_header [] = Went (mkPst [] 0 false [] [101; 103] []) false.
Proof. exact open_header_silent. Qed.
Print Assumptions C49_open_include_refuted.
