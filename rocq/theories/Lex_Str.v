From Coq Require Import ZifyBool.
From Verif Require Import Base Base_Proofs Rt_Model Lex_Model Lex_Spec Lex_Proofs Lex_Text.

Section S.
Variable strict lenient : bool.
Notation next := (advance_ne strict).

Lemma character_value utf8 t v cp ok : character utf8 t v cp ok -> if cp then 0 <= v < two31 else 0 <= v < 256.
Proof.
  intros H. destruct H as [c C NB U|cp t U T G|c v I| |t v (ds & F & ->) L|t v (ds & F & ->) L|t v (ds & F & ->) L|t v (ds & F & ->) L V|t v (ds & F & ->) L V|t v (ds & F & ->) L V].
  - lia.
  - destruct T; unfold two31; lia.
  - cbn [In] in I. repeat (destruct I as [I|I]; [injection I as <- <-; lia|]). destruct I.
  - unfold BACKSLASH. lia.
  - destruct (fold_bound 16 t ds ltac:(lia) F 0 ltac:(lia)) as (A & B). split; [exact A|]. eapply Z.lt_le_trans; [exact B|]. rewrite Z.mul_1_l. change 256 with (16 ^ 2). apply Z.pow_le_mono_r; lia.
  - destruct (fold_bound 16 t ds ltac:(lia) F 0 ltac:(lia)) as (A & B). split; [exact A|]. eapply Z.lt_le_trans; [exact B|]. rewrite Z.mul_1_l. change 256 with (16 ^ 2). apply Z.pow_le_mono_r; lia.
  - destruct (fold_bound 16 t ds ltac:(lia) F 0 ltac:(lia)) as (A & B). split; [exact A|]. rewrite L in B. eapply Z.lt_le_trans; [exact B|]. cbv. discriminate.
  - split; [|exact V]. apply (fold_bound 16 t ds); [lia|exact F|lia].
  - split; [|exact V]. apply (fold_bound 10 t ds); [lia|exact F|lia].
  - split; [|exact V]. apply (fold_bound 10 t ds); [lia|exact F|lia].
Qed.
Lemma char_literal_spec t v cp ok rest : character false t v cp ok -> ok (39 :: rest) -> rest <> [] ->
  char_literal strict 92 (39 :: t ++ 39 :: rest) = LGood v rest [].
Proof.
  intros C K NE. unfold char_literal. rewrite next by (apply ne_app; discriminate). cbn [lbind]. rewrite (litchar_spec strict false t v cp ok _ C K). cbn [lbind fst].
  rewrite peek_cons. cbn [lbind Z.eqb Pos.eqb]. rewrite next by exact NE. reflexivity.
Qed.

Lemma packed_char t v cp ok b rest : character true t v cp ok -> bytes_of v cp b -> ok rest -> packedstring_char strict 92 lenient (t ++ rest) = LGood (Some b) rest [].
Proof.
  intros C B K. unfold packedstring_char. rewrite (litchar_spec strict true t v cp ok _ C K). cbn [lbind fst snd]. pose proof (character_value _ _ _ _ _ C) as V.
  destruct cp; cbn [bytes_of] in B.
  - replace (v <? 0) with false by lia. destruct B as (S & B). rewrite u32_id by (unfold is_u32, two32; unfold two31 in V; lia). now rewrite (utf8_of_to lenient v b S B).
  - replace (v <? 0) with false by lia. subst b. rewrite Z.mod_small by lia. reflexivity.
Qed.
(* A character that begins with the backslash is not a line continuation. *)
Lemma character_head utf8 t v cp ok : character utf8 t v cp ok -> exists c more, t = c :: more /\ c <> 0 /\
  (c = 92 -> exists d more2, more = d :: more2 /\ is_space d = false).
Proof.
  intros H. destruct H as [c C NB U|cp t U T G|c v I| |t v (ds & F & ->) L|t v (ds & F & ->) L|t v (ds & F & ->) L|t v (ds & F & ->) L V|t v (ds & F & ->) L V|t v (ds & F & ->) L V]; unfold BACKSLASH in *; cbn [app].
  - exists c, []. split; [reflexivity|]. split; [lia|]. lia.
  - destruct T; eexists _, _; (split; [reflexivity|]); lia.
  - eexists _, _. split; [reflexivity|]. split; [lia|]. intros _. eexists _, _. split; [reflexivity|].
    cbn [In] in I. repeat (destruct I as [I|I]; [injection I as <- <-; reflexivity|]). destruct I.
  - eexists _, _. split; [reflexivity|]. split; [lia|]. intros _. eexists _, _. split; reflexivity.
  - eexists _, _. split; [reflexivity|]. split; [lia|]. intros _. eexists _, _. split; reflexivity.
  - eexists _, _. split; [reflexivity|]. split; [lia|]. intros _. eexists _, _. split; reflexivity.
  - eexists _, _. split; [reflexivity|]. split; [lia|]. intros _. eexists _, _. split; reflexivity.
  - eexists _, _. split; [reflexivity|]. split; [lia|]. intros _. eexists _, _. split; reflexivity.
  - eexists _, _. split; [reflexivity|]. split; [lia|]. intros _. destruct F as [|x d t ds (X1 & X) F]; [cbn [length] in L; lia|]. cbn [app]. eexists _, _. split; [reflexivity|]. unfold is_space. lia.
  - eexists _, _. split; [reflexivity|]. split; [lia|]. intros _. destruct F as [|x d t ds (X1 & X) F]; [cbn [length] in L; lia|]. cbn [app]. eexists _, _. split; [reflexivity|]. unfold is_space. lia.
Qed.
Lemma blank_spec c : blank c -> is_space c = true /\ is_newline c = false.
Proof. unfold blank, is_space, is_newline. lia. Qed.
Lemma break_spec c : line_break c <-> is_newline c = true.
Proof. unfold line_break, is_newline. lia. Qed.
Lemma space_spec c : is_space c = true <-> blank c \/ line_break c.
Proof. unfold blank, line_break, is_space. lia. Qed.
Lemma skip_blanks_run before l c : Forall blank before -> is_newline c = true -> skip_blanks (before ++ c :: l) = c :: l.
Proof.
  intros F N. induction F as [|b t B F IH]; cbn [app skip_blanks]; [rewrite N, andb_false_r; reflexivity|].
  destruct (blank_spec b B) as (-> & ->). cbn [negb andb]. exact IH.
Qed.
Lemma skip_spaces_run after l : Forall (fun c => blank c \/ line_break c) after -> (exists c more, l = c :: more /\ ~ blank c /\ ~ line_break c) -> skip_spaces (after ++ l) = l.
Proof.
  intros F (c & more & -> & N1 & N2). induction F as [|b t B F IH]; cbn [app skip_spaces].
  - destruct (is_space c) eqn:E; [|reflexivity]. apply space_spec in E. tauto.
  - apply space_spec in B. now rewrite B.
Qed.

Lemma body_run rest text data : (exists x more, rest = x :: more /\ (x = 34 \/ x = 0 \/ line_break x)) -> body rest text data -> forall fuel acc errs, (length text < fuel)%nat ->
  packedstring strict 92 lenient fuel 34 (text ++ rest) acc errs = LGood (Some (acc ++ data)) rest errs.
Proof.
  intros (x0 & more & -> & X0) B. induction B as [|t v cp ok b text data C BY K HD B IH|before br after text data FB BR FA NX B IH]; intros fuel acc errs L.
  - destruct fuel as [|fuel]; [cbn [length] in L; lia|]. cbn [app packedstring]. rewrite peek_cons. cbn [lbind]. rewrite app_nil_r.
    destruct X0 as [-> | [-> | X0]]; [reflexivity|reflexivity|]. destruct ((x0 =? 34) || (x0 =? 0)); [reflexivity|]. cbv zeta.
    apply break_spec in X0. rewrite X0. replace (x0 =? 92) with false by (unfold is_newline in X0; lia). reflexivity.
  - destruct (character_head _ _ _ _ _ C) as (c & tl & -> & C0 & HB). destruct HD as (c' & m' & E & N34 & NB). injection E as <- <-.
    destruct fuel as [|fuel]; [lia|]. rewrite <- app_assoc. cbn [app packedstring]. rewrite peek_cons. cbn [lbind]. replace ((c =? 34) || (c =? 0)) with false by lia. cbv zeta.
    replace (is_newline c) with false by (rewrite break_spec in NB; destruct (is_newline c); congruence).
    assert (R : lbind (packedstring_char strict 92 lenient (c :: tl ++ text ++ x0 :: more))
        (fun b0 l2 e => match b0 with Some b1 => packedstring strict 92 lenient fuel 34 l2 (acc ++ b1) (e ++ errs) | None => LGood None l2 (e ++ errs) end)
        = LGood (Some (acc ++ b ++ data)) (x0 :: more) errs).
    { change (c :: tl ++ text ++ x0 :: more) with ((c :: tl) ++ text ++ x0 :: more). rewrite (packed_char (c :: tl) v cp ok b _ C BY K). cbn [lbind app].
      rewrite IH by (rewrite app_length in L; cbn [length] in L; lia). now rewrite app_assoc. }
    destruct (c =? 92) eqn:E92; [|exact R]. apply Z.eqb_eq in E92. subst c. destruct (HB eq_refl) as (d & m2 & -> & SP).
    unfold continuation at 1. cbn [app]. rewrite next by discriminate. cbn [lbind skip_blanks]. rewrite SP. cbn [andb].
    assert (ND : is_newline d = false) by (unfold is_space in SP; unfold is_newline; lia). rewrite ND. cbn [negb lbind]. exact R.
  - destruct fuel as [|fuel]; [lia|].
    rewrite <- app_comm_cons, <- app_assoc, <- app_comm_cons, <- app_assoc. cbn [packedstring]. rewrite peek_cons. cbn [lbind Z.eqb Pos.eqb orb]. cbv zeta.
    unfold continuation at 1. rewrite next by (apply ne_app; discriminate). cbn [lbind]. rewrite skip_blanks_run by (try exact FB; now apply break_spec). 
    rewrite (proj1 (break_spec br) BR). cbn [negb].
    assert (G : packedstring strict 92 lenient fuel 34 (skip_spaces (after ++ text ++ x0 :: more)) acc errs = LGood (Some (acc ++ data)) (x0 :: more) errs).
    { rewrite skip_spaces_run by assumption. apply IH. cbn [length] in L. rewrite app_length in L. cbn [length] in L. rewrite app_length in L. lia. }
    destruct (br =? 13) eqn:E13.
    + assert (MC : exists b l2, match_char strict 10 (after ++ text ++ x0 :: more) = LGood b l2 [] /\ skip_spaces l2 = skip_spaces (after ++ text ++ x0 :: more)).
      { destruct (after ++ text ++ x0 :: more) as [|x l] eqn:W; [destruct after, text; discriminate|].
        destruct (Z.eq_dec 10 x) as [<-|N]; [|eexists _, _; split; [apply match_no; exact N|reflexivity]].
        assert (l <> []).
        { intros ->. destruct after as [|y0 after]; [cbn [app] in W; destruct text as [|x1 text]; [cbn [app] in W; injection W as W1 W2; subst; apply (proj1 (break_spec br)) in BR; unfold line_break in X0; cbn in *; destruct NX as (cc & mm & NXE & NX1 & NX2); cbn [app] in NXE; injection NXE as <- <-; unfold line_break in NX2; lia|]; cbn [app] in W; injection W as _ W; destruct text; discriminate|].
          cbn [app] in W. injection W as _ W. destruct after, text; discriminate. }
        eexists _, _. split; [apply match_yes; assumption|reflexivity]. }
      destruct MC as (b & l2 & -> & SK). cbn [lbind]. rewrite SK. exact G.
    + cbn [lbind]. exact G.
Qed.
Lemma string_spec text data more : body (34 :: more) text data -> more <> [] -> string_literal strict 92 lenient (34 :: text ++ 34 :: more) = LGood (Some data) more [].
Proof.
  intros B NE. unfold string_literal. rewrite next by (apply ne_app; discriminate). cbn [lbind].
  rewrite (body_run (34 :: more) text data ltac:(eauto 6) B) by (rewrite app_length; cbn [length]; lia). cbn [lbind app]. rewrite match_yes by exact NE. reflexivity.
Qed.
Lemma string_open text data x more : x = 0 \/ line_break x -> body (x :: more) text data ->
  string_literal strict 92 lenient (34 :: text ++ x :: more) = LGood (Some data) (x :: more) [37].
Proof.
  intros X B. unfold string_literal. rewrite next by (apply ne_app; discriminate). cbn [lbind].
  rewrite (body_run (x :: more) text data ltac:(eauto 6) B) by (rewrite app_length; cbn [length]; lia). cbn [lbind app].
  rewrite match_no by (unfold line_break in X; lia). reflexivity.
Qed.
Lemma char_open t v cp ok q rest : character false t v cp ok -> ok (q :: rest) -> q <> 39 ->
  char_literal strict 92 (39 :: t ++ q :: rest) = LGood v (q :: rest) [27].
Proof.
  intros C K NE. unfold char_literal. rewrite next by (apply ne_app; discriminate). cbn [lbind]. rewrite (litchar_spec strict false t v cp ok _ C K). cbn [lbind fst].
  rewrite peek_cons. cbn [lbind]. replace (q =? 39) with false by lia. reflexivity.
Qed.
End S.
