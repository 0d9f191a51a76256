(* C50: macro texts with comments and continued lines. *)
From Coq Require Import Lia ZifyBool.
From Verif Require Import Base Mac_Model Mac_Spec Mac_Proofs.

(* ---- gaps ---- *)
Lemma comment_closed : forall b t, no_close (b ++ [star]) = true -> after_comment (b ++ star :: slash :: t) = t.
Proof.
  induction b as [|c b IH]; intros t H; [reflexivity|]. cbn [app no_close] in H. apply andb_true_iff in H as [H1 H2]. apply negb_true_iff in H1.
  cbn [app after_comment]. destruct (c =? star) eqn:C; [|apply IH; exact H2].
  destruct (b ++ star :: slash :: t) as [|d r'] eqn:E; [destruct b; discriminate E|].
  replace (d =? slash) with false; [rewrite <- E; exact (IH t H2)|].
  symmetry. destruct b as [|x y]; cbn [app look] in H1, E; injection E as <- _; [reflexivity | exact H1].
Qed.
Lemma skip_blanks_blank : forall w t, blank w -> is_newline (look t) = true -> skip_blanks (w ++ t) = t.
Proof.
  induction w as [|c w IH]; intros t W T; cbn [app].
  - destruct t as [|x t]; [reflexivity|]. cbn [skip_blanks look] in *. rewrite T, andb_false_r. reflexivity.
  - inv W. destruct H1 as [S N]. cbn [skip_blanks]. rewrite S, N. cbn [negb andb]. apply IH; assumption.
Qed.
Lemma continued : forall w nl t, blank w -> nl = [10] \/ nl = [13; 10] -> continuation (backslash :: w ++ nl ++ t) = Some t.
Proof.
  intros w nl t W [-> | ->]; cbn [continuation]; rewrite skip_blanks_blank by (assumption || reflexivity); reflexivity.
Qed.
Lemma skim_gap : forall g n args t text start found, gap_ok g ->
  skim (S n) args (gap_text g ++ t) text start found = skim n args t (add_text text start (Some 32)) None found.
Proof.
  intros [b|w nl] n args t text start found G; cbn [gap_ok gap_text] in *.
  - cbn [app]. rewrite <- app_assoc. cbn [app skim look]. change ((slash =? 0) || is_newline slash) with false. cbn iota.
    change ((slash =? slash) && (star =? slash)) with false. change ((slash =? slash) && (star =? star)) with true. cbn iota. cbn [tl].
    rewrite comment_closed by exact G. reflexivity.
  - destruct G as [W NL]. cbn [app]. rewrite <- app_assoc. cbn [skim look]. change ((backslash =? 0) || is_newline backslash) with false. cbn iota.
    change (backslash =? slash) with false. cbn [andb]. change (backslash =? backslash) with true. cbn iota.
    rewrite continued by assumption. reflexivity.
Qed.

(* ---- a part, up to what follows it ---- *)
Definition follows (core tail : list Z) : Prop :=
  is_digit (look tail) = false /\ look tail <> star /\ (look tail = slash -> look (rev core) <> slash).
Lemma look_rev_cons : forall (c : Z) r, r <> [] -> look (rev (c :: r)) = look (rev r).
Proof.
  intros c r N. cbn [rev]. destruct (rev r) eqn:E; [|reflexivity]. apply (f_equal (@rev Z)) in E. rewrite rev_involutive in E. contradiction.
Qed.
Lemma follows_tl : forall c r tail, r <> [] -> follows (c :: r) tail -> follows r tail.
Proof. intros c r tail N (A & B & C). split; [exact A|]. split; [exact B|]. intros T. rewrite <- (look_rev_cons c r N). exact (C T). Qed.
Lemma follows_nil : forall tail, is_digit (look tail) = false -> look tail <> star -> follows [] tail.
Proof. intros tail A B. split; [exact A|]. split; [exact B|]. intros _. cbn. unfold slash. lia. Qed.
Lemma follows_app : forall s1 s2 tail, s2 <> [] -> follows (s1 ++ s2) tail -> follows s2 tail.
Proof.
  induction s1 as [|c s1 IH]; intros s2 tail N F; [exact F|]. apply IH; [exact N|]. apply (follows_tl c); [destruct s1; [exact N | discriminate] | exact F].
Qed.
Lemma skim_core : forall k core n tail text p found, (length core <= k)%nat -> tidy None core = true -> follows core tail ->
  (length (core ++ tail) < n)%nat ->
  exists n' text' p', (length tail < n')%nat /\ text' ++ p' = text ++ p ++ core /\
    skim n true (core ++ tail) text (Some p) found = skim n' true tail text' (Some p') (found ++ spots (pieces None core) (length text + length p)).
Proof.
  induction k as [|k IH]; intros core n tail text p found L T FO F.
  { destruct core; [|cbn in L; lia]. exists n, text, p. cbn [app pieces spots]. rewrite !app_nil_r. split; [exact F|]. split; reflexivity. }
  destruct core as [|c r].
  { exists n, text, p. cbn [app pieces spots]. rewrite !app_nil_r. split; [exact F|]. split; reflexivity. }
  cbn [app length] in L, F. cbn [tidy] in T. apply andb_true_iff in T as [T1 T]. apply andb_true_iff in T1 as [T0 TN]. apply negb_true_iff in T0, TN.
  apply andb_true_iff in T as [T T3]. apply andb_true_iff in T as [TB TS]. apply negb_true_iff in TB, TS.
  assert (C1 : (c =? slash) && (look (r ++ tail) =? slash) = false /\ (c =? slash) && (look (r ++ tail) =? star) = false).
  { destruct r as [|x y].
    - cbn [app]. destruct FO as (_ & B & C). cbn [rev app look] in C. split.
      + destruct (c =? slash) eqn:E1; [|reflexivity]. destruct (look tail =? slash) eqn:E2; [|reflexivity]. lia.
      + destruct (look tail =? star) eqn:E2; [lia | apply andb_false_r].
    - cbn [app look] in *. destruct (c =? slash); [|auto]. cbn [andb] in *. apply orb_false_iff in TS. exact TS. }
  assert (FR : r = [] \/ follows r tail) by (destruct r; [left; reflexivity | right; apply (follows_tl c); [discriminate | exact FO]]).
  assert (FR' : follows r tail) by (destruct FR as [-> |FR]; [apply follows_nil; [exact (proj1 FO) | exact (proj1 (proj2 FO))] | exact FR]).
  destruct n as [|n]; [lia|]. cbn [app skim look]. rewrite T0, TN. cbn [orb]. destruct C1 as [C1 C2]. rewrite C1, C2, TB.
  fold (is_quote c). destruct (is_quote c) eqn:IQ.
  - destruct (skim_string_tidy (length r) c r (le_n _) IQ T3) as (s1 & s2 & -> & NS & TD & SP & K).
    destruct (K (S (length ((s1 ++ s2) ++ tail))) tail text (p ++ [c])) as (t' & p' & E1 & E2); [rewrite !app_length; lia|].
    rewrite E1. rewrite app_length in L. rewrite !app_length in F.
    assert (length s1 <> 0)%nat by (destruct s1; [congruence|discriminate]).
    assert (FS : follows s2 tail) by (destruct s2; [apply follows_nil; [exact (proj1 FO) | exact (proj1 (proj2 FO))] | apply (follows_app s1); [discriminate | exact FR']]).
    destruct (IH s2 n tail t' p' found) as (n' & t2 & p2 & N1 & N2 & N3); [lia | exact TD | exact FS | rewrite app_length; lia |].
    exists n', t2, p2. split; [exact N1|]. split; [rewrite N2, (app_assoc t'), E2, <- !app_assoc; reflexivity|]. rewrite N3. f_equal. f_equal.
    assert (PE : pieces None (c :: s1 ++ s2) = Char c :: pieces (Some c) (s1 ++ s2)).
    { cbn [pieces]. rewrite IQ. assert (c <> percent /\ c <> hash) as [X1 X2] by (unfold is_quote, quote, apostrophe, percent, hash in *; lia).
      apply Z.eqb_neq in X1, X2. rewrite X1, X2. cbn [andb]. destruct (s1 ++ s2) as [|x [|y z]]; reflexivity. }
    rewrite PE. cbn [spots psize app]. pose proof (SP [] (length text + length p + 1)%nat) as SP'. rewrite !app_nil_r in SP'. rewrite SP'. f_equal.
    apply (f_equal (@length Z)) in E2. rewrite !app_length in E2. cbn [length] in E2. lia.
  - assert (PLAIN : forall ps, pieces None (c :: r) = Char c :: ps -> ps = pieces None r -> (c =? percent) && true && is_digit (look (r ++ tail)) = false ->
      exists n' text' p', (length tail < n')%nat /\ text' ++ p' = text ++ p ++ c :: r /\
      (if (c =? percent) && true && is_digit (look (r ++ tail)) then
         skim n true (tl (r ++ tail)) (add_text text (Some ((p ++ [c]) ++ [look (r ++ tail)])) None) (Some [])
           (found ++ [(length (add_text text (Some ((p ++ [c]) ++ [look (r ++ tail)])) None) - 2)%nat])
       else skim n true (r ++ tail) text (Some (p ++ [c])) found) =
      skim n' true tail text' (Some p') (found ++ spots (pieces None (c :: r)) (length text + length p))).
    { intros ps E -> ND. rewrite ND, E. destruct (IH r n tail text (p ++ [c]) found) as (n' & t2 & p2 & N1 & N2 & N3); [lia | exact T3 | exact FR' | lia |].
      exists n', t2, p2. split; [exact N1|]. split; [rewrite N2, <- !app_assoc; reflexivity|]. rewrite N3. cbn [spots psize app].
      rewrite app_length. cbn [length]. do 3 f_equal. lia. }
    destruct r as [|d r'].
    + apply (PLAIN []); [reflexivity|reflexivity|]. cbn [app]. rewrite (proj1 FO). apply andb_false_r.
    + destruct ((c =? percent) && is_digit d) eqn:PD.
      * apply andb_true_iff in PD as [P1 P2]. cbn [app look tl]. rewrite P1, P2. cbn [andb]. apply Z.eqb_eq in P1. subst c.
        cbn [tidy] in T3. apply andb_true_iff in T3 as [_ T3]. apply andb_true_iff in T3 as [_ T3].
        replace (is_quote d) with false in T3 by (symmetry; unfold is_digit, is_quote, quote, apostrophe in *; lia).
        cbn [app length] in L, F.
        assert (F2 : follows r' tail) by (destruct r'; [apply follows_nil; [exact (proj1 FO) | exact (proj1 (proj2 FO))] | apply (follows_tl d); [discriminate | exact FR']]).
        match goal with |- context [skim n true _ ?t (Some []) ?f] => destruct (IH r' n tail t [] f) as (n' & t2 & p2 & N1 & N2 & N3); [lia | exact T3 | exact F2 | lia |] end.
        exists n', t2, p2. split; [exact N1|]. split; [rewrite N2; cbn [add_text app]; rewrite <- !app_assoc; reflexivity|]. rewrite N3. f_equal.
        rewrite <- app_assoc. f_equal. cbn [add_text].
        cbn [pieces]. replace ((percent =? percent) && is_digit d) with true by (rewrite P2; reflexivity). cbn [spots psize].
        cbn [app]. rewrite !app_length. cbn [length]. f_equal; [lia|]. f_equal. lia.
      * assert (ND : (c =? percent) && true && is_digit (look ((d :: r') ++ tail)) = false) by (cbn [app look]; rewrite andb_true_r; exact PD).
        destruct r' as [|e r''].
        { apply (PLAIN (pieces None [d])); [|reflexivity|exact ND]. cbn [pieces]. rewrite PD, IQ. reflexivity. }
        destruct ((c =? hash) && (d =? percent) && is_digit e) eqn:Q.
        2:{ apply (PLAIN (pieces None (d :: e :: r''))); [|reflexivity|exact ND].
            change (pieces None (c :: d :: e :: r'')) with (if (c =? percent) && is_digit d then Param (d - 48) :: pieces None (e :: r'') else
              if (c =? hash) && (d =? percent) && is_digit e then Quoted (e - 48) :: pieces None r'' else Char c :: pieces (if is_quote c then Some c else None) (d :: e :: r'')).
            rewrite PD, Q, IQ. reflexivity. }
        apply andb_true_iff in Q as [Q Q3]. apply andb_true_iff in Q as [Q1 Q2]. apply Z.eqb_eq in Q1, Q2. subst c d.
        rewrite ND.
        destruct (IH (percent :: e :: r'') n tail text (p ++ [hash]) found) as (n' & t2 & p2 & N1 & N2 & N3); [lia | exact T3 | exact FR' | lia |].
        exists n', t2, p2. split; [exact N1|]. split; [rewrite N2, <- !app_assoc; reflexivity|]. rewrite N3. f_equal. f_equal.
        assert (PE : pieces None (hash :: percent :: e :: r'') = Quoted (e - 48) :: pieces None r'').
        { change (pieces None (hash :: percent :: e :: r'')) with (if (hash =? percent) && is_digit percent then Param (percent - 48) :: pieces None (e :: r'') else
              if (hash =? hash) && (percent =? percent) && is_digit e then Quoted (e - 48) :: pieces None r'' else Char hash :: pieces (if is_quote hash then Some hash else None) (percent :: e :: r'')).
          rewrite Q3. reflexivity. }
        assert (PF : pieces None (percent :: e :: r'') = Param (e - 48) :: pieces None r'').
        { change (pieces None (percent :: e :: r'')) with (if (percent =? percent) && is_digit e then Param (e - 48) :: pieces None r'' else
            match r'' with f :: r3 => if (percent =? hash) && (e =? percent) && is_digit f then Quoted (f - 48) :: pieces None r3 else Char percent :: pieces (if is_quote percent then Some percent else None) (e :: r'')
            | [] => Char percent :: pieces (if is_quote percent then Some percent else None) (e :: r'') end). rewrite Q3. reflexivity. }
        rewrite PE, PF. cbn [spots psize app]. rewrite app_length. cbn [length]. f_equal; [lia|]. f_equal. lia.
Qed.

(* ---- pieces of parts put together ---- *)
Definition junction (a b : list Z) : Prop := (is_digit (look b) = false /\ look b <> percent) \/ is_space (look (rev a)) = true \/ a = [].
Lemma junction_tl : forall c r b, r <> [] -> junction (c :: r) b -> junction r b.
Proof.
  intros c r b N [J|[J|J]]; [left; exact J | right; left; rewrite <- (look_rev_cons c r N); exact J | discriminate J].
Qed.
Lemma pieces_cons : forall c b, (forall d r, b = d :: r -> (c =? percent) && is_digit d = false /\ forall e r2, r = e :: r2 -> (c =? hash) && (d =? percent) && is_digit e = false) ->
  is_quote c = false -> pieces None (c :: b) = Char c :: pieces None b.
Proof.
  intros c b H Q. cbn [pieces]. rewrite Q. destruct b as [|d r]; [reflexivity|]. destruct (H d r eq_refl) as [H1 H2]. rewrite H1.
  destruct r as [|e r2]; [reflexivity|]. rewrite (H2 e r2 eq_refl). reflexivity.
Qed.
Lemma space_not : forall c, is_space c = true -> (c =? percent) = false /\ (c =? hash) = false.
Proof. intros c. unfold is_space, percent, hash. lia. Qed.
Lemma pieces_app : forall n a lit b, (length a <= n)%nat -> tidy lit a = true -> junction a b ->
  pieces lit (a ++ b) = pieces lit a ++ pieces None b.
Proof.
  induction n as [|n IH]; intros a lit b L T J.
  { destruct a; [|cbn in L; lia]. cbn [tidy] in T. destruct lit; [discriminate|]. reflexivity. }
  destruct a as [|c r]; [cbn [tidy] in T; destruct lit; [discriminate|]; reflexivity|].
  cbn [length] in L. cbn [tidy] in T. apply andb_true_iff in T as [T1 T].
  destruct lit as [q|].
  - cbn [app pieces]. destruct (c =? backslash).
    + destruct r as [|d r']; [discriminate T|]. apply andb_true_iff in T as [_ T]. cbn [app length] in *. rewrite IH; [reflexivity | lia | exact T |].
      destruct r'; [discriminate T|]. apply (junction_tl d); [discriminate|]. apply (junction_tl c); [discriminate | exact J].
    + rewrite IH; [reflexivity | lia | exact T |].
      destruct r; [right; right; reflexivity | apply (junction_tl c); [discriminate | exact J]].
  - apply andb_true_iff in T as [T T3]. apply andb_true_iff in T as [TB TS].
    assert (JR : junction r b) by (destruct r; [right; right; reflexivity | apply (junction_tl c); [discriminate | exact J]]).
    assert (STEP : forall d r', r ++ b = d :: r' ->
        (c =? percent) && is_digit d = false -> (forall e r2, r' = e :: r2 -> (c =? hash) && (d =? percent) && is_digit e = false) ->
        pieces None (c :: r) = Char c :: pieces (if is_quote c then Some c else None) r ->
        pieces None ((c :: r) ++ b) = pieces None (c :: r) ++ pieces None b).
    { intros d r' E H1 H2 PE. rewrite PE. cbn [app]. rewrite <- IH; [|lia | exact T3 | exact JR].
      rewrite E. cbn [pieces]. rewrite H1. destruct r' as [|e r2]; [reflexivity|]. rewrite (H2 e r2 eq_refl). reflexivity. }
    destruct r as [|d r'].
    + cbn [tidy] in T3. destruct (is_quote c) eqn:IQ; [discriminate T3|]. destruct b as [|d b']; [rewrite app_nil_r; cbn [pieces]; rewrite app_nil_r; reflexivity|].
      cbn [app]. rewrite pieces_cons; [reflexivity| |exact IQ]. intros x y E. injection E as <- <-.
      destruct J as [(J1 & J2)|[J|J]]; [| |discriminate J].
      * cbn [look] in J1, J2. split; [rewrite J1; apply andb_false_r|]. intros e r2 _. replace (d =? percent) with false by lia. rewrite andb_false_r. reflexivity.
      * cbn [rev app look] in J. destruct (space_not c J) as [X1 X2]. rewrite X1, X2. split; reflexivity.
    + destruct ((c =? percent) && is_digit d) eqn:PD.
      * cbn [app pieces]. rewrite PD. cbn [tidy] in T3. apply andb_true_iff in PD as [P1 P2]. apply Z.eqb_eq in P1. subst c.
        change (is_quote percent) with false in T3. cbn iota in T3.
        apply andb_true_iff in T3 as [_ T3]. apply andb_true_iff in T3 as [_ T3].
        replace (is_quote d) with false in T3 by (symmetry; unfold is_digit, is_quote, quote, apostrophe in *; lia).
        cbn [length] in L. rewrite IH; [reflexivity | lia | exact T3 |].
        destruct r'; [right; right; reflexivity | apply (junction_tl d); [discriminate | exact JR]].
      * destruct r' as [|e r''].
        { apply (STEP d b eq_refl PD); [|cbn [pieces]; rewrite PD; reflexivity].
          intros e r2 ->. destruct J as [(J1 & J2)|[J|J]]; [| |discriminate J].
          - cbn [look] in J1. rewrite J1. apply andb_false_r.
          - cbn [rev app look] in J. destruct (space_not d J) as [X1 X2]. rewrite X1, andb_false_r. reflexivity. }
        destruct ((c =? hash) && (d =? percent) && is_digit e) eqn:Q.
        { cbn [app pieces]. rewrite PD, Q. cbn [tidy] in T3. apply andb_true_iff in Q as [Q Q3]. apply andb_true_iff in Q as [Q1 Q2]. apply Z.eqb_eq in Q1, Q2. subst c d.
          change (is_quote hash) with false in T3. cbn iota in T3.
          apply andb_true_iff in T3 as [_ T3]. apply andb_true_iff in T3 as [_ T3]. change (is_quote percent) with false in T3. cbn iota in T3.
          apply andb_true_iff in T3 as [_ T3]. apply andb_true_iff in T3 as [_ T3].
          replace (is_quote e) with false in T3 by (symmetry; unfold is_digit, is_quote, quote, apostrophe in *; lia).
          cbn [length] in L. rewrite IH; [reflexivity | lia | exact T3 |].
          destruct r''; [right; right; reflexivity | apply (junction_tl e); [discriminate|]; apply (junction_tl percent); [discriminate | exact JR]]. }
        apply (STEP d (e :: r'' ++ b) eq_refl PD); [|cbn [pieces]; rewrite PD, Q; reflexivity].
        intros e' r2 E. injection E as <- _. exact Q.
Qed.
Lemma tidy_app : forall n a lit b, (length a <= n)%nat -> tidy lit a = true -> tidy None b = true ->
  (look b <> slash /\ look b <> star) \/ look (rev a) <> slash -> tidy lit (a ++ b) = true.
Proof.
  induction n as [|n IH]; intros a lit b L T B J.
  { destruct a; [|cbn in L; lia]. cbn [tidy] in T. destruct lit; [discriminate|exact B]. }
  destruct a as [|c r]; [cbn [tidy] in T; destruct lit; [discriminate|exact B]|].
  cbn [length] in L. cbn [app tidy] in *. apply andb_true_iff in T as [T1 T]. rewrite T1. cbn [andb].
  assert (JT : forall c r, r <> [] -> (look b <> slash /\ look b <> star) \/ look (rev (c :: r)) <> slash -> (look b <> slash /\ look b <> star) \/ look (rev r) <> slash).
  { intros c0 r0 N [X|X]; [left; exact X | right; rewrite <- (look_rev_cons c0 r0 N); exact X]. }
  assert (JR : (look b <> slash /\ look b <> star) \/ look (rev r) <> slash).
  { destruct r; [right; cbn; unfold slash; lia | apply (JT c); [discriminate | exact J]]. }
  destruct lit as [q|].
  - destruct (c =? backslash).
    + destruct r as [|d r']; [discriminate T|]. cbn [app length] in *. apply andb_true_iff in T as [T2 T]. rewrite T2. cbn [andb].
      apply IH; [lia | exact T | exact B |]. destruct r'; [right; cbn; unfold slash; lia | apply (JT d); [discriminate | exact JR]].
    + apply IH; [lia | exact T | exact B | exact JR].
  - apply andb_true_iff in T as [T T3]. apply andb_true_iff in T as [TB TS]. rewrite TB. cbn [andb].
    rewrite (IH r _ b) by (try lia; assumption). rewrite andb_true_r.
    destruct r as [|d r']; [|exact TS]. cbn [app]. cbn [rev app look] in J. destruct J as [J|J]; unfold slash, star in *; lia.
Qed.
Lemma spots_app : forall a b off, spots (a ++ b) off = spots a off ++ spots b (off + length (text_of a)).
Proof.
  induction a as [|p a IH]; intros b off; [cbn; rewrite Nat.add_0_r; reflexivity|].
  cbn [app spots]. rewrite IH, <- app_assoc. do 3 f_equal. unfold text_of. cbn [flat_map]. rewrite app_length. destruct p; cbn [text1 psize length]; lia.
Qed.

(* ---- a part and the gap behind it ---- *)
Definition after_part (acc s : list Z) : list Z := match drop_spaces s with [] => acc | p => with_blank (acc ++ p) end.
Definition ended (acc : list Z) : Prop := acc = [] \/ exists a, acc = a ++ [32].
Lemma blank_prefix : forall s, tidy None s = true -> exists w, blank w /\ s = w ++ drop_spaces s /\ is_space (look (drop_spaces s)) = false /\ tidy None (drop_spaces s) = true.
Proof.
  induction s as [|c r IH]; intros T; [exists []; repeat split; constructor|]. cbn [drop_spaces]. destruct (is_space c) eqn:S.
  - assert (T' := T). cbn [tidy] in T'. apply andb_true_iff in T' as [T1 T']. apply andb_true_iff in T1 as [_ TN]. apply negb_true_iff in TN.
    apply andb_true_iff in T' as [_ T']. destruct (space_plain c S TN) as (_ & _ & _ & Q & _). rewrite Q in T'.
    destruct (IH T') as (w & W & E & X & Y). exists (c :: w). split; [constructor; [split; assumption | exact W]|].
    split; [cbn [app]; rewrite <- E; reflexivity|]. split; assumption.
  - exists []. split; [constructor|]. split; [reflexivity|]. split; [exact S | exact T].
Qed.
Lemma add_blank : forall t p, t ++ p <> [] -> add_text t (Some p) (Some 32) = with_blank (t ++ p).
Proof.
  intros t p N. cbn [add_text]. unfold with_blank. destruct (rev (t ++ p)) as [|y r] eqn:E; [|cbn [look]; reflexivity].
  apply (f_equal (@rev Z)) in E. rewrite rev_involutive in E. contradiction.
Qed.
Lemma gap_look : forall g t, is_digit (look (gap_text g ++ t)) = false /\ look (gap_text g ++ t) <> star.
Proof. intros [b|w nl] t; cbn [gap_text app look]; unfold is_digit, slash, backslash, star; lia. Qed.
Lemma rev_drop : forall w s, s <> [] -> look (rev (w ++ s)) = look (rev s).
Proof. induction w as [|c w IH]; intros s N; [reflexivity|]. cbn [app]. rewrite look_rev_cons; [apply IH, N | destruct w; [exact N | discriminate]]. Qed.
Lemma first_none : forall n c r text found, is_space c = false -> tidy None (c :: r) = true -> forall t, follows (c :: r) t ->
  skim n true ((c :: r) ++ t) text None found = skim n true ((c :: r) ++ t) text (Some []) found.
Proof.
  intros n c r text found S T t F. cbn [app]. cbn [tidy] in T. apply andb_true_iff in T as [_ T]. apply andb_true_iff in T as [T _]. apply andb_true_iff in T as [TB TS].
  apply negb_true_iff in TB, TS. apply skim_none; [exact S | | exact TB].
  destruct r as [|d r']; [|exact TS]. cbn [app]. destruct F as (_ & F2 & F3). cbn [rev app look] in F3. unfold slash, star in *. lia.
Qed.
Lemma skim_part : forall s g t n acc found, part_ok (s, g) -> (length (s ++ gap_text g ++ t) < n)%nat ->
  exists n', (length t < n')%nat /\ skim n true (s ++ gap_text g ++ t) acc None found =
    skim n' true t (after_part acc s) None (found ++ spots (pieces None (drop_spaces s)) (length acc)).
Proof.
  intros s g t n acc found (T & SL & G) F. cbn [fst snd] in *. destruct (blank_prefix s T) as (w & W & E & NS & TD). unfold after_part.
  assert (GL := gap_look g t).
  assert (FN : (length (drop_spaces s ++ gap_text g ++ t) < n - length w)%nat /\ n = (length w + (n - length w))%nat).
  { rewrite E in F. rewrite !app_length in *. lia. }
  destruct FN as [FN N0].
  assert (LEAD : skim n true (s ++ gap_text g ++ t) acc None found = skim (n - length w) true (drop_spaces s ++ gap_text g ++ t) acc None found).
  { rewrite <- (skim_lead w (n - length w) true (drop_spaces s ++ gap_text g ++ t) acc found W). rewrite <- N0. rewrite (app_assoc w), <- E. reflexivity. }
  rewrite LEAD. clear LEAD N0.
  assert (GN : forall m, (length (gap_text g ++ t) < m)%nat -> exists m', m = S m' /\ (length t < m')%nat).
  { intros m M. destruct m as [|m']; [lia|]. exists m'. split; [reflexivity|]. rewrite app_length in M. destruct g; cbn [gap_text length] in M; lia. }
  destruct (drop_spaces s) as [|c r] eqn:DS.
  - cbn [app pieces spots]. rewrite app_nil_r. destruct (GN _ FN) as (m & -> & M). exists m. split; [exact M|]. rewrite skim_gap by exact G. reflexivity.
  - assert (FO : follows (c :: r) (gap_text g ++ t)).
    { split; [exact (proj1 GL)|]. split; [exact (proj2 GL)|]. intros _. rewrite E, rev_drop in SL by discriminate. exact SL. }
    rewrite first_none by assumption.
    destruct (skim_core (length (c :: r)) (c :: r) (n - length w) (gap_text g ++ t) acc [] found (le_n _) TD FO FN) as (n' & t' & p' & N1 & N2 & N3).
    rewrite N3. destruct (GN _ N1) as (m & -> & M). exists m. split; [exact M|]. rewrite skim_gap by exact G.
    rewrite add_blank by (rewrite N2; cbn [app]; destruct acc; discriminate). rewrite N2. cbn [app length]. rewrite Nat.add_0_r. reflexivity.
Qed.
Lemma ended_junction : forall acc b, ended acc -> junction acc b.
Proof. intros acc b [-> |(a & ->)]; [right; right; reflexivity | right; left]. rewrite rev_app_distr. reflexivity. Qed.
Lemma ended_slash : forall acc, ended acc -> look (rev acc) <> slash.
Proof. intros acc [-> |(a & ->)]; [cbn; unfold slash; lia|]. rewrite rev_app_distr. cbn. unfold slash. lia. Qed.
Lemma add_part : forall acc p, ended acc -> tidy None acc = true -> tidy None p = true ->
  tidy None (acc ++ p) = true /\ spots (pieces None (acc ++ p)) 0 = spots (pieces None acc) 0 ++ spots (pieces None p) (length acc).
Proof.
  intros acc p E TA TP. split.
  - apply (tidy_app (length acc)); [lia | exact TA | exact TP | right; apply ended_slash, E].
  - rewrite (pieces_app (length acc)) by (try lia; try assumption; apply ended_junction, E). rewrite spots_app, text_of_pieces. reflexivity.
Qed.
Lemma part_state : forall acc s, ended acc -> tidy None acc = true -> tidy None s = true ->
  ended (after_part acc s) /\ tidy None (after_part acc s) = true /\
  spots (pieces None (after_part acc s)) 0 = spots (pieces None acc) 0 ++ spots (pieces None (drop_spaces s)) (length acc).
Proof.
  intros acc s E TA TS. destruct (blank_prefix s TS) as (_ & _ & _ & _ & TD). unfold after_part. destruct (drop_spaces s) as [|c r] eqn:DS.
  - cbn [pieces spots]. rewrite app_nil_r. auto.
  - destruct (add_part acc (c :: r) E TA TD) as [A B]. unfold with_blank. destruct (look (rev (acc ++ c :: r)) =? 32) eqn:L.
    + split; [|split; [exact A | exact B]]. right. destruct (rev (acc ++ c :: r)) as [|y l] eqn:R; [discriminate L|]. cbn [look] in L. apply Z.eqb_eq in L. subst y.
      exists (rev l). apply (f_equal (@rev Z)) in R. rewrite rev_involutive in R. exact R.
    + split; [right; eexists; reflexivity|]. split.
      * apply (tidy_app (length (acc ++ c :: r))); [lia | exact A | reflexivity | left; cbn; unfold slash, star; lia].
      * rewrite (pieces_app (length (acc ++ c :: r))); [|lia | exact A | left; cbn; unfold is_digit, percent; lia].
        rewrite spots_app, B, text_of_pieces. cbn [pieces spots app]. rewrite app_nil_r. reflexivity.
Qed.
Lemma skim_parts : forall parts w1 core w2 nl more n acc, Forall part_ok parts -> blank w1 -> blank w2 -> is_newline nl = true -> core <> [] -> trimmed core -> tidy None core = true ->
  ended acc -> tidy None acc = true -> (length (glue parts (w1 ++ core ++ w2) ++ nl :: more) < n)%nat ->
  let text := joined acc parts core in
  skim n true (glue parts (w1 ++ core ++ w2) ++ nl :: more) acc None (spots (pieces None acc) 0) = Skimmed text (spots (pieces None text) 0) (nl :: more).
Proof.
  induction parts as [|[s g] parts IH]; intros w1 core w2 nl more n acc P W1 W2 NL NE TR T E TA F text.
  - cbn [glue joined] in *. unfold text. clear text.
    assert (DC : drop_spaces core = core) by (destruct core as [|c r]; [reflexivity|]; cbn [drop_spaces]; destruct TR as [TR _]; cbn in TR; rewrite TR; reflexivity).
    rewrite DC. rewrite <- !app_assoc in *. rewrite !app_length in F. cbn [length] in F.
    replace n with (length w1 + (n - length w1))%nat by lia. rewrite skim_lead by exact W1. destruct core as [|c r]; [contradiction|].
    assert (LS : is_space (look (w2 ++ nl :: more)) = true). { destruct W2 as [|x y [X1 X2]]; cbn; [unfold is_newline, is_space in *; lia|exact X1]. }
    rewrite first_none; [|destruct TR as [TR _]; exact TR | exact T | unfold follows, is_space, is_digit, star, slash in *; lia].
    rewrite (skim_tidy (length (c :: r))); [|lia | exact T | exact W2 | exact NL | lia].
    cbn [app length]. rewrite Nat.add_0_r. destruct (add_part acc (c :: r) E TA T) as [_ B]. rewrite B. f_equal.
    change (acc ++ c :: r ++ w2) with (acc ++ (c :: r) ++ w2). rewrite app_assoc. unfold trim_end. rewrite rev_app_distr, drop_blank; [apply rev_involutive| |].
    + apply Forall_rev. eapply Forall_impl; [|exact W2]. cbn. tauto.
    + rewrite rev_drop by discriminate. exact (proj2 TR).
  - inv P. cbn [glue joined] in *. unfold text. clear text. rewrite <- !app_assoc in *.
    destruct (skim_part s g (glue parts (w1 ++ core ++ w2) ++ nl :: more) n acc (spots (pieces None acc) 0) H1 F) as (n' & N1 & N2).
    rewrite N2. destruct H1 as (TS & _). destruct (part_state acc s E TA TS) as (E' & TA' & SP). rewrite <- SP.
    exact (IH w1 core w2 nl more n' (after_part acc s) H2 W1 W2 NL NE TR T E' TA' N1).
Qed.
Theorem text_with_gaps : forall parts w1 core w2 nl more, Forall part_ok parts -> blank w1 -> blank w2 -> is_newline nl = true -> core <> [] -> trimmed core -> tidy None core = true ->
  let text := joined [] parts core in
  exists ps, skim_line true (glue parts (w1 ++ core ++ w2) ++ nl :: more) = Skimmed text ps (nl :: more) /\
    forall al, Forall (supplied al) (pieces None text) -> substitute text al ps 0 = Some (render al (pieces None text)).
Proof.
  intros parts w1 core w2 nl more P W1 W2 NL NE TR T text. exists (spots (pieces None text) 0). split.
  - apply (skim_parts parts w1 core w2 nl more _ [] P W1 W2 NL NE TR T); [left; reflexivity | reflexivity | lia].
  - intros al S. apply substitution, S.
Qed.

(* ---- arguments ---- *)
Lemma arg_gap : forall g n t text start d, gap_ok g ->
  skim_arg (S n) (gap_text g ++ t) text start d false = skim_arg n t (add_text text start (Some 32)) None d false.
Proof.
  intros [b|w nl] n t text start d G; cbn [gap_ok gap_text] in *.
  - cbn [app]. rewrite <- app_assoc. cbn [app skim_arg look]. change (slash =? 0) with false. cbn iota.
    change ((slash =? slash) && (star =? slash)) with false. change ((slash =? slash) && (star =? star)) with true. cbn iota. cbn [tl].
    rewrite comment_closed by exact G. reflexivity.
  - destruct G as [W NL]. cbn [app]. rewrite <- app_assoc. cbn [skim_arg]. change (backslash =? 0) with false. cbn iota.
    change (backslash =? slash) with false. cbn [andb]. change (is_newline backslash) with false. change (backslash =? backslash) with true. cbn iota.
    rewrite continued by assumption. reflexivity.
Qed.
Definition behind (a t : list Z) : Prop := look t <> star /\ (look t = slash -> look (rev a) <> slash).
Lemma behind_tl : forall c r t, behind (c :: r) t -> behind r t.
Proof.
  intros c r t (A & B). split; [exact A|]. intros T. destruct r as [|x y]; [cbn; unfold slash; lia|]. rewrite <- (look_rev_cons c (x :: y)) by discriminate. exact (B T).
Qed.
Lemma no_comment : forall c r t, behind (c :: r) t -> (c =? slash) && ((look r =? slash) || (look r =? star)) = false ->
  (c =? slash) && (look (r ++ t) =? slash) = false /\ (c =? slash) && (look (r ++ t) =? star) = false.
Proof.
  intros c r t (A & B) H. destruct r as [|x y].
  - cbn [app]. cbn [rev app look] in B. split; [|destruct (look t =? star) eqn:E2; [lia | apply andb_false_r]].
    destruct (c =? slash) eqn:E1; [|reflexivity]. destruct (look t =? slash) eqn:E2; [|reflexivity]. lia.
  - cbn [app look] in *. destruct (c =? slash); [|auto]. cbn [andb] in *. apply orb_false_iff in H. exact H.
Qed.
Lemma through_some : forall a str d d' n t text p, through str d a = Some d' -> behind a t ->
  skim_arg (length a + n) (a ++ t) text (Some p) d str = skim_arg n t text (Some (p ++ a)) d' false.
Proof.
  induction a as [|c r IH]; intros str d d' n t text p H B.
  - cbn [through] in H. destruct str; [discriminate H|]. injection H as <-. cbn [length Nat.add app]. rewrite app_nil_r. reflexivity.
  - cbn [through] in H. destruct ((c =? 0) || is_newline c || (c =? backslash)) eqn:Z0; [discriminate H|].
    apply orb_false_iff in Z0 as [Z0 ZB]. apply orb_false_iff in Z0 as [Z0 ZN]. assert (BT := behind_tl _ _ _ B).
    cbn [length Nat.add app skim_arg]. rewrite Z0. destruct str.
    + rewrite (IH _ _ _ n t text (p ++ [c]) H BT). rewrite <- app_assoc. reflexivity.
    + destruct ((c =? slash) && ((look r =? slash) || (look r =? star))) eqn:C; [discriminate H|].
      destruct (no_comment c r t B C) as [C1 C2]. rewrite C1, C2, ZN, ZB.
      destruct (c =? lparen). { rewrite (IH _ _ _ n t text (p ++ [c]) H BT). rewrite <- app_assoc. reflexivity. }
      destruct (c =? rparen). { destruct d as [|m]; [discriminate H|]. rewrite (IH _ _ _ n t text (p ++ [c]) H BT). rewrite <- app_assoc. reflexivity. }
      destruct ((c =? comma) && (d =? 0)%nat) eqn:CM; [discriminate H|].
      destruct (c =? quote); rewrite (IH _ _ _ n t text (p ++ [c]) H BT); rewrite <- app_assoc; reflexivity.
Qed.
Lemma through_none : forall a d d' n t text, through false d a = Some d' -> behind a t ->
  skim_arg (length a + n) (a ++ t) text None d false = skim_arg n t text (match drop_spaces a with [] => None | p => Some p end) d' false.
Proof.
  induction a as [|c r IH]; intros d d' n t text H B.
  - cbn [through] in H. injection H as <-. reflexivity.
  - destruct (is_space c) eqn:S.
    + cbn [through] in H. destruct ((c =? 0) || is_newline c || (c =? backslash)) eqn:Z0; [discriminate H|].
      apply orb_false_iff in Z0 as [Z0 ZB]. apply orb_false_iff in Z0 as [Z0 ZN].
      assert ((c =? slash) = false /\ (c =? lparen) = false /\ (c =? rparen) = false /\ (c =? comma) = false /\ (c =? quote) = false) as (X1 & X2 & X3 & X4 & X5)
        by (unfold is_space, slash, lparen, rparen, comma, quote in *; lia).
      rewrite X1, X2, X3, X4, X5 in H. cbn [andb] in H.
      cbn [length Nat.add app skim_arg drop_spaces]. rewrite Z0, S, X1, X2, X3, X4, X5, ZN, ZB. cbn [andb].
      exact (IH _ _ n t text H (behind_tl _ _ _ B)).
    + assert (X := through_some (c :: r) false d d' n t text [] H B). cbn [app] in X |- *. cbn [drop_spaces]. rewrite S. rewrite <- X.
      cbn [through] in H. destruct ((c =? 0) || is_newline c || (c =? backslash)) eqn:Z0; [discriminate H|].
      apply orb_false_iff in Z0 as [Z0 ZB]. apply orb_false_iff in Z0 as [Z0 ZN].
      destruct ((c =? slash) && ((look r =? slash) || (look r =? star))) eqn:C; [discriminate H|].
      destruct (no_comment c r t B C) as [C1 C2].
      cbn [length Nat.add skim_arg]. rewrite Z0, S, C1, C2, ZN, ZB. cbn [app].
      destruct (c =? lparen); [reflexivity|]. destruct (c =? rparen); [destruct d; [discriminate H | reflexivity]|].
      destruct ((c =? comma) && (d =? 0)%nat); [discriminate H|]. reflexivity.
Qed.
Lemma arg_parts : forall parts final d t n acc, argument_parts d parts final -> stops t -> (length (glue parts final ++ t) < n)%nat ->
  skim_arg n (glue parts final ++ t) acc None d false = Some (joined acc parts final, t).
Proof.
  induction parts as [|[s g] parts IH]; intros final d t n acc A ST F; cbn [argument_parts glue joined] in *.
  - assert (B : behind final t) by (unfold behind; destruct ST as [-> | ->]; unfold comma, rparen, star, slash; lia).
    rewrite app_length in F. replace n with (length final + (n - length final))%nat by lia. rewrite (through_none final d 0 _ t acc A B).
    destruct (n - length final)%nat as [|m] eqn:M; [lia|]. destruct t as [|x t']; [destruct ST; discriminate|]. unfold stops in ST. cbn [look] in ST. cbn [skim_arg].
    destruct (drop_spaces final) as [|y z]; [rewrite app_nil_r|]; destruct ST as [-> | ->]; reflexivity.
  - destruct A as (SL & G & d' & T & A). rewrite <- !app_assoc in *.
    assert (GL := gap_look g (glue parts final ++ t)).
    assert (B : behind s (gap_text g ++ glue parts final ++ t)) by (split; [exact (proj2 GL) | intros _; exact SL]).
    assert (LG : (1 <= length (gap_text g))%nat) by (destruct g; cbn [gap_text length]; lia).
    rewrite !app_length in F. replace n with (length s + S (n - length s - 1))%nat by lia. rewrite (through_none s d d' _ _ acc T B).
    rewrite arg_gap by exact G.
    assert (E : add_text acc match drop_spaces s with [] => None | p => Some p end (Some 32) = match drop_spaces s with [] => acc | p => with_blank (acc ++ p) end).
    { destruct (drop_spaces s) as [|y z]; [reflexivity|]. apply add_blank. destruct acc; discriminate. }
    rewrite E. apply IH; [exact A | exact ST | rewrite app_length; lia].
Qed.
Theorem argument_with_gaps : forall parts final t, argument_parts 0 parts final -> stops t ->
  skim_argument (glue parts final ++ t) = Some (joined [] parts final, t).
Proof. intros parts final t A ST. apply arg_parts; [exact A | exact ST | lia]. Qed.
