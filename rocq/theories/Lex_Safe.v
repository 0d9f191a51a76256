From Coq Require Import ZifyBool.
From Verif Require Import Base Base_Proofs Rt_Model Lex_Model Lex_Spec Lex_Proofs Lex_Text Lex_Str Lex_Sound.

Section F.
Variable strict lenient : bool.
Notation next := (advance_ne strict).

(* The reading goes well and leaves a proper rest of the text, or an assertion fails. *)
Definition reads {A : Type} (m : lres A) (l : list Z) : Prop :=
  (exists r t rest e, m = LGood r rest e /\ l = t ++ rest /\ ended rest) \/ (strict = true /\ m = LUndef UBAssert).
Definition eats {A : Type} (m : lres A) (l : list Z) : Prop :=
  (exists r t rest e, m = LGood r rest e /\ l = t ++ rest /\ t <> [] /\ ended rest) \/ (strict = true /\ m = LUndef UBAssert).

Lemma conts_reads n : forall r l, ended l -> exists v t rest, continuations strict n r l = LGood v rest [] /\ l = t ++ rest /\ ended rest.
Proof.
  induction n as [|n IH]; intros r l EN; cbn [continuations]; [exists r, [], l; auto|].
  destruct (ended_ne _ EN) as (x & l' & ->). rewrite peek_cons. cbn [lbind]. destruct (Z.land x 192 =? 128) eqn:X; cbn [negb]; [|exists (-1), [], (x :: l'); auto].
  destruct (advance_ended strict _ _ EN) as (-> & EN2); [intros ->; discriminate X|]. cbn [lbind]. destruct (IH (wrap32 (Z.lor (Z.shiftl r 6) (Z.land x 63))) l' EN2) as (v & t & rest & E & -> & ER).
  exists v, (x :: t), rest. auto.
Qed.
Lemma code_reads n : forall c l, ended l -> exists v t rest e, code_escape strict n c l = LGood v rest e /\ l = t ++ rest /\ ended rest.
Proof.
  induction n as [|n IH]; intros c l EN; cbn [code_escape]; [exists c, [], l, []; auto|]. cbv zeta.
  destruct (ended_ne _ EN) as (x & l' & ->). rewrite peek_cons. cbn [lbind]. destruct (digit_of x <? 0) eqn:X; [eexists _, [], (x :: l'), _; auto|].
  destruct (digit_of_ge x ltac:(lia)) as (d & D & N). destruct (advance_ended strict _ _ EN N) as (-> & EN2). cbn [lbind].
  destruct (IH (Z.lor (wrap32 (Z.shiftl c 4)) (digit_of x)) l' EN2) as (v & t & rest & e & E & -> & ER). exists v, (x :: t), rest, e. auto.
Qed.
Lemma swallow_reads c l : ended l -> c <> 0 -> exists t rest, swallow strict c l = LGood tt rest [] /\ l = t ++ rest /\ ended rest.
Proof.
  intros EN C. destruct (ended_ne _ EN) as (x & l' & ->). destruct (Z.eq_dec c x) as [->|N].
  - pose proof (ended_next _ _ EN C) as EN2. exists [x], l'. split; [apply swallow_yes; now apply ended_nn|auto].
  - exists [], (x :: l'). split; [now apply swallow_no|auto].
Qed.
Lemma nonneg_reads c cp rest e l t : l = t ++ rest -> ended rest -> t <> [] -> eats (nonneg strict c cp rest e) l.
Proof. intros -> EN T. unfold nonneg, eats. destruct strict; cbn [andb]; [destruct (c <? 0); [auto|]|]; left; eexists _, t, rest, _; auto. Qed.

Lemma litchar_eats utf8 l : ended l -> (exists c l', l = c :: l' /\ c <> 0) -> l <> [92; 0] -> eats (litchar strict 92 utf8 l) l.
Proof.
  intros EN (c & l' & -> & N0) NB. destruct (advance_ended strict _ _ EN N0) as (AE & EN2). destruct (Z.eq_dec c 92) as [->|NC].
  - destruct (ended_ne _ EN2) as (ch & l3 & ->). destruct (Z.eq_dec ch 92) as [->|N2].
    { pose proof (ended_next _ _ EN2 ltac:(lia)) as EN3. unfold litchar. rewrite match_yes by discriminate. cbn [lbind negb]. rewrite match_yes by now apply ended_nn. cbn [lbind].
      left. eexists _, [92; 92], l3, _. split; [reflexivity|]. split; [reflexivity|]. split; [discriminate|exact EN3]. }
    assert (L3 : l3 <> []). { intros ->. destruct EN2 as (t & E). destruct t as [|? t]; [cbn [app] in E; injection E as ->; congruence|]. cbn [app] in E. injection E as _ E. destruct t; discriminate. }
    rewrite litchar_escape by assumption.
    destruct (letter_escape ch) as [w|] eqn:LE.
    { assert (CH : ch <> 0) by (intros ->; discriminate LE). pose proof (ended_next _ _ EN2 CH) as EN3. apply (nonneg_reads _ _ _ _ _ [92; ch]); [reflexivity|exact EN3|discriminate]. }
    destruct (Z.eq_dec ch 0) as [->|CH].
    { cbn [Z.eqb orb]. change (is_digit 0) with false. cbv iota. apply (nonneg_reads _ _ _ _ _ [92]); [reflexivity|exact EN2|discriminate]. }
    pose proof (ended_next _ _ EN2 CH) as EN3.
    destruct (ch =? 120).
    { destruct (hex_inv strict 2 0 l3 EN3) as (t & ds & r1 & -> & ER & _ & _ & _ & E). rewrite E. cbn [lbind]. destruct (swallow_reads 59 r1 ER ltac:(lia)) as (t2 & r2 & -> & -> & ER2). cbn [lbind].
      apply (nonneg_reads _ _ _ _ _ ([92; ch] ++ t ++ t2)); [cbn [app]; now rewrite <- app_assoc|exact ER2|discriminate]. }
    destruct ((ch =? 117) || (ch =? 85)).
    { destruct (code_reads (if ch =? 117 then 4%nat else 8%nat) 0 l3 EN3) as (v & t & r1 & e & -> & -> & ER). cbn [lbind]. apply (nonneg_reads _ _ _ _ _ ([92; ch] ++ t)); [reflexivity|exact ER|discriminate]. }
    destruct (is_digit ch); [|apply (nonneg_reads _ _ _ _ _ [92]); [reflexivity|exact EN2|discriminate]].
    destruct (dec_inv strict (ch :: l3) 0 0 EN2) as (t & ds & r1 & w & W & ER & _ & _ & ->). cbn [lbind]. destruct (swallow_reads 59 r1 ER ltac:(lia)) as (t2 & r2 & -> & -> & ER2). cbn [lbind fst snd]. cbv zeta. rewrite W.
    destruct (255 <? w); apply (nonneg_reads _ _ _ _ _ ([92] ++ t ++ t2)); try exact ER2; try discriminate; cbn [app]; now rewrite <- app_assoc.
  - unfold litchar. rewrite match_no by lia. cbn [lbind negb]. rewrite peek_cons. cbn [lbind]. cbv zeta. rewrite AE. cbn [lbind].
    assert (PL : forall e, eats (LGood (c, false) l' e) (c :: l')). { intros e. left. eexists _, [c], l', _. split; [reflexivity|]. split; [reflexivity|]. split; [discriminate|exact EN2]. }
    destruct (utf8 && (127 <? c)); [|apply PL].
    unfold get_utf8_char. rewrite AE. cbn [lbind].
    assert (K : forall v r1 t, l' = t ++ r1 -> ended r1 -> eats (lbind (LGood v r1 []) (fun c0 l0 _ => if 0 <=? c0 then LGood (c0, true) l0 [] else LGood (c, false) l' [248])) (c :: l')).
    { intros v r1 t E ER. cbn [lbind]. destruct (0 <=? v); [|apply PL]. left. eexists _, (c :: t), r1, _. split; [reflexivity|]. split; [cbn [app]; congruence|]. split; [discriminate|exact ER]. }
    destruct (c <=? 127); [apply (K _ l' []); auto|]. cbv zeta. destruct (255 - c =? 0); [apply (K _ l' []); auto|].
    destruct ((leftmost 8 (255 - c) =? 0) || (5 <? leftmost 8 (255 - c))); [apply (K _ l' []); auto|].
    destruct (conts_reads (Z.to_nat (6 - leftmost 8 (255 - c))) (Z.land c (2 ^ leftmost 8 (255 - c) - 1)) l' EN2) as (v & t & r1 & -> & E & ER). now apply (K _ r1 t).
Qed.

Definition no_end_slash (l : list Z) : Prop := forall p, l <> p ++ [92; 0].
Lemma slash_suffix t l : no_end_slash (t ++ l) -> no_end_slash l.
Proof. intros H p ->. apply (H (t ++ p)). now rewrite app_assoc. Qed.

Lemma skip_blanks_reads l : ended l -> exists t, l = t ++ skip_blanks l /\ ended (skip_blanks l).
Proof.
  induction l as [|c l IH]; intros EN; [exists []; auto|]. cbn [skip_blanks]. destruct (is_space c && negb (is_newline c)) eqn:E; [|exists []; auto].
  assert (c <> 0) by (intros ->; discriminate E). destruct (IH (ended_next _ _ EN H)) as (t & E1 & E2). exists (c :: t). split; [cbn [app]; now rewrite <- E1|exact E2].
Qed.
Lemma skip_spaces_reads l : ended l -> exists t, l = t ++ skip_spaces l /\ ended (skip_spaces l).
Proof.
  induction l as [|c l IH]; intros EN; [exists []; auto|]. cbn [skip_spaces]. destruct (is_space c) eqn:E; [|exists []; auto].
  assert (c <> 0) by (intros ->; discriminate E). destruct (IH (ended_next _ _ EN H)) as (t & E1 & E2). exists (c :: t). split; [cbn [app]; now rewrite <- E1|exact E2].
Qed.
Lemma continuation_reads l : ended (92 :: l) -> (exists r e, continuation strict (92 :: l) = LGood None r e) \/ (exists t l2 r e, continuation strict (92 :: l) = LGood (Some l2) r e /\ 92 :: l = t ++ l2 /\ t <> [] /\ ended l2).
Proof.
  intros EN. destruct (advance_ended strict _ _ EN ltac:(lia)) as (AE & EN2). unfold continuation. rewrite AE. cbn [lbind].
  destruct (skip_blanks_reads l EN2) as (t & E1 & E2). destruct (ended_ne _ E2) as (c & l2 & W). rewrite W in *. destruct (is_newline c) eqn:NL; cbn [negb]; [|eauto]. right.
  assert (C0 : c <> 0) by (intros ->; discriminate NL). pose proof (ended_next _ _ E2 C0) as E3.
  destruct (c =? 13).
  - destruct (ended_ne _ E3) as (d & l3 & ->). destruct (Z.eq_dec 10 d) as [<-|N].
    + pose proof (ended_next _ _ E3 ltac:(lia)) as E4. rewrite match_yes by now apply ended_nn. cbn [lbind]. exists (92 :: t ++ [c; 10]), l3. eexists _, _. split; [reflexivity|]. split; [rewrite E1; cbn [app]; now rewrite <- app_assoc|]. split; [discriminate|exact E4].
    + rewrite match_no by exact N. cbn [lbind]. exists (92 :: t ++ [c]), (d :: l3). eexists _, _. split; [reflexivity|]. split; [rewrite E1; cbn [app]; now rewrite <- app_assoc|]. split; [discriminate|exact E3].
  - exists (92 :: t ++ [c]), l2. eexists _, _. split; [reflexivity|]. split; [rewrite E1; cbn [app]; now rewrite <- app_assoc|]. split; [discriminate|exact E3].
Qed.

(* What one turn of the loop does. *)
Lemma turn l : ended l -> no_end_slash l -> (forall term fuel data errs, packedstring strict 92 lenient (S fuel) term l data errs = LGood (Some data) l errs) \/
  (forall term, hd 0 l = term -> forall fuel data errs, packedstring strict 92 lenient (S fuel) term l data errs = LGood (Some data) l errs) /\
  ((exists t l2, l = t ++ l2 /\ t <> [] /\ ended l2 /\ forall term fuel data errs, hd 0 l <> term -> packedstring strict 92 lenient (S fuel) term l data errs = packedstring strict 92 lenient fuel term l2 data errs) \/
   (exists t l2 b e, l = t ++ l2 /\ t <> [] /\ ended l2 /\ forall term fuel data errs, hd 0 l <> term -> packedstring strict 92 lenient (S fuel) term l data errs =
       match b with None => LGood None l2 (e ++ errs) | Some b => packedstring strict 92 lenient fuel term l2 (data ++ b) (e ++ errs) end) \/
   (strict = true /\ forall term fuel data errs, hd 0 l <> term -> packedstring strict 92 lenient (S fuel) term l data errs = LUndef UBAssert) \/
   (forall term fuel data errs, hd 0 l <> term -> packedstring strict 92 lenient (S fuel) term l data errs = LGood (Some data) l errs)).
Proof.
  intros EN NS. destruct (ended_ne _ EN) as (c & l' & ->). destruct (Z.eq_dec c 0) as [->|N0].
  { left. intros term fuel data errs. cbn [packedstring]. rewrite peek_cons. cbn [lbind Z.eqb]. now rewrite orb_true_r. }
  right. split. { intros term <- fuel data errs. cbn [packedstring hd]. rewrite peek_cons. cbn [lbind]. now rewrite Z.eqb_refl. }
  assert (U : forall term fuel data errs, c <> term -> packedstring strict 92 lenient (S fuel) term (c :: l') data errs =
      let character := if is_newline c then LGood (Some data) (c :: l') errs
        else lbind (packedstring_char strict 92 lenient (c :: l')) (fun b l2 e => match b with None => LGood None l2 (e ++ errs) | Some b => packedstring strict 92 lenient fuel term l2 (data ++ b) (e ++ errs) end) in
      if c =? 92 then lbind (continuation strict (c :: l')) (fun k _ _ => match k with Some l2 => packedstring strict 92 lenient fuel term (skip_spaces l2) data errs | None => character end) else character).
  { intros term fuel data errs NT. cbn [packedstring]. rewrite peek_cons. cbn [lbind]. replace ((c =? term) || (c =? 0)) with false by lia. reflexivity. }
  assert (CH : (is_newline c = true) \/ (exists t l2 b e, c :: l' = t ++ l2 /\ t <> [] /\ ended l2 /\ packedstring_char strict 92 lenient (c :: l') = LGood b l2 e) \/ (strict = true /\ packedstring_char strict 92 lenient (c :: l') = LUndef UBAssert)).
  { destruct (is_newline c); [auto|right]. destruct (litchar_eats true (c :: l') EN ltac:(eauto) (fun E => NS [] E)) as [(r & t & rest & e & E & W & T & ER)|(S & E)]; unfold packedstring_char; rewrite E; cbn [lbind]; [|auto].
    left. destruct (fst r <? 0); [eexists t, rest, _, _; auto|]. destruct (snd r); eexists t, rest, _, _; auto. }
  destruct (c =? 92) eqn:E92.
  - apply Z.eqb_eq in E92. subst c. change (is_newline 92) with false in *. cbv iota in *. destruct (continuation_reads l' EN) as [(r & e & E)|(t & l2 & r & e & E & W & T & ER)].
    + destruct CH as [CH|[(t & l2 & b & e' & W & T & ER & P)|(S & P)]]; [discriminate| |].
      * right. left. exists t, l2, b, e'. split; [exact W|]. split; [exact T|]. split; [exact ER|]. intros term fuel data errs NT. cbn [hd] in NT. rewrite U by exact NT. cbv zeta. rewrite E. cbn [lbind]. now rewrite P.
      * right. right. left. split; [exact S|]. intros term fuel data errs NT. cbn [hd] in NT. rewrite U by exact NT. cbv zeta. rewrite E. cbn [lbind]. now rewrite P.
    + left. destruct (skip_spaces_reads l2 ER) as (t3 & W3 & ER3). exists (t ++ t3), (skip_spaces l2). split; [rewrite W, <- app_assoc; now rewrite <- W3|]. split; [destruct t; [congruence|discriminate]|]. split; [exact ER3|].
      intros term fuel data errs NT. cbn [hd] in NT. rewrite U by exact NT. cbv zeta. rewrite E. reflexivity.
  - destruct CH as [CH|[(t & l2 & b & e' & W & T & ER & P)|(S & P)]].
    + right. right. right. intros term fuel data errs NT. cbn [hd] in NT. rewrite U by exact NT. cbv zeta. now rewrite CH.
    + destruct (is_newline c) eqn:NL.
      * right. right. right. intros term fuel data errs NT. cbn [hd] in NT. rewrite U by exact NT. reflexivity.
      * right. left. exists t, l2, b, e'. split; [exact W|]. split; [exact T|]. split; [exact ER|]. intros term fuel data errs NT. cbn [hd] in NT. rewrite U by exact NT. cbv zeta. now rewrite P.
    + destruct (is_newline c) eqn:NL.
      * right. right. right. intros term fuel data errs NT. cbn [hd] in NT. rewrite U by exact NT. reflexivity.
      * right. right. left. split; [exact S|]. intros term fuel data errs NT. cbn [hd] in NT. rewrite U by exact NT. cbv zeta. now rewrite P.
Qed.

(* The fuel given to the loop is enough: more of it changes nothing. *)
Lemma packed_fuel fuel : forall term l data errs more, ended l -> no_end_slash l -> (length l <= fuel)%nat ->
  packedstring strict 92 lenient (fuel + more) term l data errs = packedstring strict 92 lenient fuel term l data errs.
Proof.
  induction fuel as [|fuel IH]; intros term l data errs more EN NS L; [destruct (ended_ne _ EN) as (? & ? & ->); cbn [length] in L; lia|].
  cbn [Nat.add]. destruct (turn l EN NS) as [H|(H1 & H)]; [now rewrite !H|]. destruct (Z.eq_dec (hd 0 l) term) as [E|N]; [now rewrite !(H1 _ E)|].
  assert (SH : forall t l2, l = t ++ l2 -> t <> [] -> (length l2 <= fuel)%nat /\ no_end_slash l2).
  { intros t l2 -> T. split; [|eapply slash_suffix; exact NS]. rewrite app_length in L. destruct t; [congruence|]. cbn [length] in L. lia. }
  destruct H as [(t & l2 & W & T & ER & H)|[(t & l2 & b & e & W & T & ER & H)|[(_ & H)|H]]]; rewrite !H by exact N; try reflexivity.
  - destruct (SH _ _ W T). now apply IH.
  - destruct (SH _ _ W T). destruct b; [|reflexivity]. now apply IH.
Qed.
Lemma packed_reads fuel : forall term l data errs, ended l -> no_end_slash l ->
  (exists r rest e, packedstring strict 92 lenient fuel term l data errs = LGood r rest e /\ ended rest) \/ (strict = true /\ packedstring strict 92 lenient fuel term l data errs = LUndef UBAssert).
Proof.
  induction fuel as [|fuel IH]; intros term l data errs EN NS; [left; cbn [packedstring]; eauto|].
  destruct (turn l EN NS) as [H|(H1 & H)]; [rewrite H; eauto 6|]. destruct (Z.eq_dec (hd 0 l) term) as [E|N]; [rewrite (H1 _ E); eauto 6|].
  destruct H as [(t & l2 & W & T & ER & H)|[(t & l2 & b & e & W & T & ER & H)|[(S & H)|H]]]; rewrite H by exact N; [| |auto|eauto 6].
  - apply IH; [exact ER|]. eapply slash_suffix. rewrite <- W. exact NS.
  - destruct b; [|eauto 6]. apply IH; [exact ER|]. eapply slash_suffix. rewrite <- W. exact NS.
Qed.
Lemma string_reads text : last text 0 <> 92 ->
  (exists r rest e, string_literal strict 92 lenient (34 :: text ++ [0]) = LGood r rest e /\ exists more, rest = more ++ [0]) \/ (strict = true /\ string_literal strict 92 lenient (34 :: text ++ [0]) = LUndef UBAssert).
Proof.
  intros NL. assert (EN : ended (text ++ [0])) by now exists text.
  assert (NS : no_end_slash (text ++ [0])).
  { intros p E. change [92; 0] with ([92] ++ [0]) in E. rewrite app_assoc in E. apply app_inj_tail in E. destruct E as (-> & _). rewrite last_last in NL. congruence. }
  unfold string_literal. rewrite next by now apply ended_nn. cbn [lbind].
  destruct (packed_reads (length (text ++ [0])) 34 (text ++ [0]) [] [] EN NS) as [(r & rest & e & -> & ER)|(S & ->)]; cbn [lbind]; [|auto]. left.
  destruct r as [bs|]; [|eauto 6]. destruct (ended_ne _ ER) as (c & l & ->). destruct (Z.eq_dec 34 c) as [<-|N].
  - pose proof (ended_next _ _ ER ltac:(lia)) as E2. rewrite match_yes by now apply ended_nn. cbn [lbind]. eauto 6.
  - rewrite match_no by exact N. cbn [lbind]. eauto 6.
Qed.
Lemma char_reads text : text <> [] -> hd 0 text <> 0 -> last text 0 <> 92 ->
  (exists r rest e, char_literal strict 92 (39 :: text ++ [0]) = LGood r rest e /\ exists more, rest = more ++ [0]) \/ (strict = true /\ char_literal strict 92 (39 :: text ++ [0]) = LUndef UBAssert).
Proof.
  intros NE N0 NL. assert (EN : ended (text ++ [0])) by now exists text. unfold char_literal. rewrite next by now apply ended_nn. cbn [lbind].
  assert (NS : text ++ [0] <> [92; 0]).
  { intros E. change [92; 0] with ([92] ++ [0]) in E. apply app_inj_tail in E. destruct E as (-> & _). apply NL. reflexivity. }
  destruct (litchar_eats false (text ++ [0]) EN ltac:(destruct text as [|x text]; [congruence|]; cbn [app hd] in *; eauto) NS) as [(r & t & rest & e & -> & W & T & ER)|(S & ->)]; cbn [lbind]; [|auto]. left.
  destruct (ended_ne _ ER) as (c & l & ->). rewrite peek_cons. cbn [lbind]. destruct (Z.eq_dec c 39) as [->|N].
  - destruct (advance_ended strict _ _ ER ltac:(lia)) as (AE & E2). rewrite AE. cbn [Z.eqb Pos.eqb lbind]. eauto 6.
  - replace (c =? 39) with false by lia. eauto 6.
Qed.
End F.
