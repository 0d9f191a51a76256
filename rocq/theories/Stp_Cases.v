(* Texts of statements.  C48. *)
From Verif Require Import Base Par_Model Par_Spec Par_Cases Stp_Model Stp_Spec Stp_Proofs Stp_Complete Stp_Whole.
From Coq Require Import Lia.

Definition no_string (_ : Z) : bool := false.
Definition pn (p : punct) : token := tok (P p).
Definition wd (k : kw) : token := tok (Other k).

(* for (int 5 = 0; 5 < 3; 5++) if (5 == 1) if (5 == 2) continue; else { f(5); int 6; }; names are numbers *)
Definition body2 : list token :=
  [wd KIf; pn PLPar; tok (Sym 5); pn PEq; tok (Lit 1); pn PRPar; wd KIf; pn PLPar; tok (Sym 5); pn PEq; tok (Lit 2); pn PRPar;
   wd KContinue; pn PSemi; wd KElse; pn PLBrace; tok (Sym 9); pn PLPar; tok (Sym 5); pn PRPar; pn PSemi; tok (Ty 0); tok (Sym 6); pn PSemi; pn PRBrace].
Definition text2 : list token :=
  [wd KFor; pn PLPar; tok (Ty 0); tok (Sym 5); pn (PAsg ASet); tok (Lit 0); pn PSemi; tok (Sym 5); pn PLess; tok (Lit 3); pn PSemi; tok (Sym 5); pn PInc; pn PRPar] ++ body2.
Definition tree2 : stmt :=
  SFor (Some (SDecl 0 [(5, Some (ELit 0))])) (Some (EBin PLess (ESym 5) (ELit 3))) (Some (EPostInc PInc (ESym 5)))
    (SIf (EBin PEq (ESym 5) (ELit 1))
       (SIf (EBin PEq (ESym 5) (ELit 2)) SContinue (Some (SBlock [SExpr (ECall (ESym 9) [AExpr (ESym 5)]); SDecl 0 [(6, None)]]))) None).
Lemma text2_read : read_statement true no_string true false (text2 ++ [pn PRBrace]) = PGood tree2 [pn PRBrace].
Proof. vm_compute. reflexivity. Qed.
Lemma text2_no_exit : no_exit (text2 ++ [pn PRBrace]).
Proof. unfold no_exit. repeat (apply Forall_cons; [discriminate|]). apply Forall_nil. Qed.
Lemma text2_grammar : states true no_string true true false text2 tree2 [pn PRBrace].
Proof.
  apply (req_all true no_string eq_refl). pose proof (proj1 (required_iff true no_string eq_refl true false _ _ _ text2_no_exit) text2_read) as (l & E & H).
  apply app_inv_tail in E. now rewrite E.
Qed.
Lemma text2_no_jump : jumps tree2 = false /\ jumps (SIf (ESym 1) SContinue None) = true. Proof. split; reflexivity. Qed.

(* exit 1;  and  exit; f(); *)
Definition exit_value : list token := [wd KExit; tok (Lit 1); pn PSemi].
Definition exit_call : list token := [wd KExit; pn PSemi; tok (Sym 9); pn PLPar; pn PRPar; pn PSemi].
Lemma exit_cases :
  read_statement true no_string true false exit_value = PGood (SExit None) [tok (Lit 1); pn PSemi] /\
  read_statement true no_string true false exit_call = PGood (SExit (Some (ECall (ESym 9) []))) [].
Proof. split; vm_compute; reflexivity. Qed.

(* Two lines of one name each. *)
Lemma two_lines : exists a b, 
  read_statement false no_string true false [a] = PGood (SExpr (ESym 1)) [] /\ read_statement false no_string true false [b] = PGood (SExpr (ESym 2)) [] /\
  bol b = true /\ read_statement false no_string true false [a; b] = PGood (SDecl 1 [(2, None)]) [].
Proof. exists (mkTok (Sym 1) true), (mkTok (Sym 2) true). repeat split; vm_compute; reflexivity. Qed.

(* if (1) if (2) 3; else 4; *)
Definition paren1 (v : Z) : list token := [pn PLPar; tok (Lit v); pn PRPar].
Lemma paren1_read v : parenthesised true true (paren1 v) (ELit v).
Proof.
  exists (pn PLPar), [tok (Lit v)], (pn PRPar). do 3 (split; [reflexivity|]). split; [|split; [intros _; exact I|discriminate]].
  exists [ELit v]. split; [|now left]. apply s_one. do 12 (apply r_up; [|lia]). apply r_operand. now apply o_lit.
Qed.
Lemma line_read v d p rest : states true no_string true d p [tok (Lit v); pn PSemi] (SExpr (ELit v)) rest.
Proof.
  apply (st_expr true no_string true d p [tok (Lit v)] (ELit v) [pn PSemi] rest).
  - split; [|split; [intros _; exact I|discriminate]]. exists [ELit v]. split; [|now left]. apply s_one. do 12 (apply r_up; [|lia]). apply r_operand. now apply o_lit.
  - split; [intros H; inversion H; discriminate|]. split; [discriminate|left; discriminate].
  - left. exists (pn PSemi). split; reflexivity.
Qed.
