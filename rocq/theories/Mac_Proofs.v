(* C50: proofs about macro text and arguments. *)
From Coq Require Import Lia ZifyBool.
From Verif Require Import Base Mac_Model Mac_Spec.

(* ---- pieces and the text they come from ---- *)

Definition text1 (p : piece) : list Z := match p with Char c => [c] | Param n => [percent; n + 48] | Quoted n => [hash; percent; n + 48] end.
Definition text_of (l : list piece) : list Z := flat_map text1 l.
Definition psize (p : piece) : nat := match p with Char _ => 1 | Param _ => 2 | Quoted _ => 3 end.
Fixpoint spots (l : list piece) (off : nat) : list nat :=
  match l with
  | [] => []
  | p :: r => match p with Char _ => [] | Param _ => [off] | Quoted _ => [S off] end ++ spots r (off + psize p)
  end.
Definition digit_piece (p : piece) : Prop := match p with Char _ => True | Param n | Quoted n => 0 <= n <= 9 end.
Definition starts_param (l : list piece) : bool := match l with Param _ :: _ => true | _ => false end.
Fixpoint apart (l : list piece) : Prop :=
  match l with [] => True | p :: r => match p with Char c => starts_param r = true -> c <> hash | _ => True end /\ apart r end.

Ltac inv H := inversion H; subst; clear H.

Lemma digit_of : forall d, is_digit d = true -> 0 <= d - 48 <= 9 /\ d - 48 + 48 = d.
Proof. intros d. unfold is_digit. lia. Qed.

Lemma pieces_text : forall n s lit, (length s <= n)%nat -> text_of (pieces lit s) = s /\ Forall digit_piece (pieces lit s).
Proof.
  induction n as [|n IH]; intros s lit L; [destruct s; [split; [reflexivity|constructor]|cbn in L; lia]|].
  destruct s as [|c r]; [split; [reflexivity|constructor]|]. cbn [length] in L.
  assert (STEP : forall l2, text_of (Char c :: pieces l2 r) = c :: r /\ Forall digit_piece (Char c :: pieces l2 r)).
  { intros l2. destruct (IH r l2 ltac:(lia)) as [E F]. cbn [text_of flat_map text1 app]. fold (text_of (pieces l2 r)). rewrite E. split; [reflexivity|constructor; [exact Logic.I|exact F]]. }
  destruct lit as [q|]; cbn [pieces].
  - destruct (c =? backslash); [|apply STEP]. destruct r as [|d r']; [split; [reflexivity|repeat constructor]|].
    destruct (IH r' (Some q) ltac:(cbn [length] in L; lia)) as [E F]. cbn [text_of flat_map text1 app]. fold (text_of (pieces (Some q) r')). rewrite E.
    split; [reflexivity|repeat constructor; exact F].
  - destruct r as [|d r']; [split; [reflexivity|repeat constructor]|].
    destruct ((c =? percent) && is_digit d) eqn:P.
    + apply andb_true_iff in P as [P1 P2]. apply Z.eqb_eq in P1. subst c. destruct (digit_of d P2) as [D1 D2].
      destruct (IH r' None ltac:(cbn [length] in L; lia)) as [E F]. cbn [text_of flat_map text1 app]. fold (text_of (pieces None r')). rewrite E, D2.
      split; [reflexivity|constructor; [exact D1|exact F]].
    + destruct r' as [|e r'']; [apply STEP|]. destruct ((c =? hash) && (d =? percent) && is_digit e) eqn:Q; [|apply STEP].
      apply andb_true_iff in Q as [Q Q3]. apply andb_true_iff in Q as [Q1 Q2]. apply Z.eqb_eq in Q1, Q2. subst c d. destruct (digit_of e Q3) as [D1 D2].
      destruct (IH r'' None ltac:(cbn [length] in L; lia)) as [E F]. cbn [text_of flat_map text1 app]. fold (text_of (pieces None r'')). rewrite E, D2.
      split; [reflexivity|constructor; [exact D1|exact F]].
Qed.
Lemma text_of_pieces : forall lit s, text_of (pieces lit s) = s.
Proof. intros lit s. apply (pieces_text (length s)); lia. Qed.
Lemma pieces_digits : forall lit s, Forall digit_piece (pieces lit s).
Proof. intros lit s. apply (pieces_text (length s)); lia. Qed.

Lemma apart_char : forall c l, apart l -> (starts_param l = true -> c <> hash) -> apart (Char c :: l).
Proof. intros c l A H. split; assumption. Qed.
Lemma lit_no_param : forall q s, starts_param (pieces (Some q) s) = false.
Proof. intros q [|c r]; [reflexivity|]. cbn [pieces]. destruct (c =? backslash); [|reflexivity]. destruct r; reflexivity. Qed.
Lemma starts_param_text : forall s, starts_param (pieces None s) = true -> exists d r, s = percent :: d :: r /\ is_digit d = true.
Proof.
  intros [|c [|d r]] H; try discriminate. cbn [pieces] in H. destruct ((c =? percent) && is_digit d) eqn:P.
  - apply andb_true_iff in P as [P1 P2]. apply Z.eqb_eq in P1. subst. eauto.
  - destruct r as [|e r'']; [discriminate|]. destruct ((c =? hash) && (d =? percent) && is_digit e); discriminate.
Qed.
Lemma pieces_apart : forall n s lit, (length s <= n)%nat -> (forall q, lit = Some q -> q <> hash) -> apart (pieces lit s).
Proof.
  induction n as [|n IH]; intros s lit L Q; [destruct s; [exact Logic.I|cbn in L; lia]|].
  destruct s as [|c r]; [exact Logic.I|]. cbn [length] in L.
  destruct lit as [q|]; cbn [pieces].
  - destruct (c =? backslash) eqn:B.
    + destruct r as [|d r']; [repeat split; discriminate|]. cbn [length] in L. apply apart_char; [|cbn; discriminate]. apply apart_char; [apply IH; [lia|exact Q]|].
      intros X. rewrite lit_no_param in X. discriminate.
    + destruct (c =? q) eqn:CQ.
      * apply Z.eqb_eq in CQ. subst c. apply apart_char; [apply IH; [lia|discriminate]|]. intros _. apply Q; reflexivity.
      * apply apart_char; [apply IH; [lia|exact Q]|]. intros X. rewrite lit_no_param in X. discriminate.
  - assert (QQ : forall q, (if is_quote c then Some c else None) = Some q -> q <> hash).
    { intros q. destruct (is_quote c) eqn:IQ; [|discriminate]. intros [= <-]. unfold is_quote, quote, apostrophe, hash in *. lia. }
    assert (STEP : (starts_param (pieces None r) = true -> c <> hash) -> apart (Char c :: pieces (if is_quote c then Some c else None) r)).
    { intros H. apply apart_char; [apply IH; [lia|exact QQ]|]. destruct (is_quote c); [intros X; rewrite lit_no_param in X; discriminate|exact H]. }
    destruct r as [|d r']; [repeat split; discriminate|]. destruct ((c =? percent) && is_digit d) eqn:P.
    + cbn [apart]. split; [exact Logic.I|]. apply IH; [cbn [length] in L; lia|discriminate].
    + destruct r' as [|e r''].
      * apply STEP. cbn. discriminate.
      * destruct ((c =? hash) && (d =? percent) && is_digit e) eqn:R.
        { cbn [apart]. split; [exact Logic.I|]. apply IH; [cbn [length] in L; lia|discriminate]. }
        apply STEP. intros SP ->. apply starts_param_text in SP as (d' & r2 & SP & D). injection SP as -> -> _. rewrite !Z.eqb_refl, D in R. discriminate.
Qed.

(* ---- substitution ---- *)

Lemma nth_app_at : forall (a : list Z) x r d, nth (length a) (a ++ x :: r) d = x.
Proof. intros a x r d. rewrite app_nth2, Nat.sub_diag by lia. reflexivity. Qed.
Lemma skipn_len : forall (a r : list Z), skipn (length a) (a ++ r) = r.
Proof. intros a r. rewrite skipn_app, skipn_all, Nat.sub_diag. reflexivity. Qed.
Lemma firstn_len : forall (a r : list Z), firstn (length a) (a ++ r) = a.
Proof. intros a r. rewrite firstn_app, firstn_all, Nat.sub_diag. cbn. apply app_nil_r. Qed.

Definition ends_hash (l : list Z) : Prop := exists a, l = a ++ [hash].
Lemma nth_last : forall (a : list Z) x r d, nth (length a) ((a ++ [x]) ++ r) d = x.
Proof. intros. rewrite <- app_assoc. apply nth_app_at. Qed.

Lemma subst_render : forall args ps pre run, Forall digit_piece ps -> Forall (supplied args) ps -> apart ps ->
  (starts_param ps = true -> ~ ends_hash (pre ++ run)) ->
  substitute (pre ++ run ++ text_of ps) args (spots ps (length pre + length run)) (length pre) = Some (run ++ render args ps).
Proof.
  intros args. induction ps as [|p r IH]; intros pre run D S A H.
  - cbn. rewrite !app_nil_r. rewrite skipn_len. reflexivity.
  - inv D. inv S. destruct p as [c|m|m].
    + cbn [spots psize app text_of flat_map text1]. fold (text_of r).
      replace (pre ++ run ++ c :: text_of r) with (pre ++ (run ++ [c]) ++ text_of r) by (rewrite <- app_assoc; reflexivity).
      replace (length pre + length run + 1)%nat with (length pre + length (run ++ [c]))%nat by (rewrite app_length; cbn; lia).
      rewrite IH; [|assumption|assumption| |].
      * cbn [render flat_map render1]. rewrite <- app_assoc. reflexivity.
      * destruct A as [_ A]. exact A.
      * intros SP. destruct A as [A _]. specialize (A SP).
        intros (a & E). rewrite app_assoc in E. apply app_inj_tail in E as [_ E]. congruence.
    + cbn [spots psize app text_of flat_map text1]. fold (text_of r). cbn [digit_piece] in *. cbn [substitute].
      set (sub := pre ++ run ++ percent :: m + 48 :: text_of r).
      set (off := (length pre + length run)%nat).
      assert (N1 : nth off sub 0 = percent). { unfold sub, off. rewrite app_assoc, <- app_length. apply nth_app_at. }
      assert (N2 : nth (S off) sub 0 = m + 48).
      { unfold sub, off. replace (S (length pre + length run)) with (length (pre ++ run ++ [percent])) by (rewrite !app_length; cbn; lia).
        replace (pre ++ run ++ percent :: m + 48 :: text_of r) with ((pre ++ run ++ [percent]) ++ m + 48 :: text_of r) by (rewrite <- !app_assoc; reflexivity). apply nth_app_at. }
      rewrite N1, N2. replace (off <? length pre)%nat with false by (symmetry; apply Nat.ltb_ge; unfold off; lia).
      rewrite Z.eqb_refl. replace (is_digit (m + 48)) with true by (unfold is_digit; lia). cbn [negb orb].
      assert (NH : ((0 <? off)%nat && (nth (pred off) sub 0 =? hash)) = false).
      { destruct (rev (pre ++ run)) as [|x y] eqn:RV.
        - assert (pre ++ run = []) as E by (rewrite <- (rev_involutive (pre ++ run)), RV; reflexivity). unfold off. rewrite <- app_length, E. reflexivity.
        - assert (E : pre ++ run = rev y ++ [x]) by (rewrite <- (rev_involutive (pre ++ run)), RV; reflexivity).
          apply andb_false_iff. right. unfold off. rewrite <- app_length, E, app_length, Nat.add_1_r. cbn [pred].
          unfold sub. rewrite app_assoc, E, nth_last. apply Z.eqb_neq. intros ->. apply (H eq_refl). exists (rev y). exact E. }
      rewrite NH. replace (off - length pre)%nat with (length run) by (unfold off; lia).
      assert (RUN : firstn (length run) (skipn (length pre) sub) = run) by (unfold sub; rewrite skipn_len; apply firstn_len).
      rewrite RUN. 
      specialize (IH (pre ++ run ++ [percent; m + 48]) []). cbn [app length] in IH.
      replace (off + 2)%nat with (length (pre ++ run ++ [percent; m + 48])) by (unfold off; rewrite !app_length; cbn; lia).
      rewrite Nat.add_0_r in IH. replace ((pre ++ run ++ [percent; m + 48]) ++ text_of r) with sub in IH by (unfold sub; rewrite <- !app_assoc; reflexivity).
      rewrite IH; try assumption; try (destruct A as [_ A]; exact A).
      * replace (m + 48 - 48) with m by lia. cbn [render flat_map render1]. fold (render args r). reflexivity.
      * rewrite app_nil_r. intros _ (a & E). change [percent; m + 48] with ([percent] ++ [m + 48]) in E. rewrite !app_assoc in E. apply app_inj_tail in E as [_ E]. unfold hash in E. lia.
    + cbn [spots psize app text_of flat_map text1]. fold (text_of r). cbn [digit_piece] in *. cbn [substitute].
      set (sub := pre ++ run ++ hash :: percent :: m + 48 :: text_of r).
      set (off := (length pre + length run)%nat).
      assert (N0 : nth off sub 0 = hash). { unfold sub, off. rewrite app_assoc, <- app_length. apply nth_app_at. }
      assert (N1 : nth (S off) sub 0 = percent).
      { unfold sub, off. replace (S (length pre + length run)) with (length (pre ++ run ++ [hash])) by (rewrite !app_length; cbn; lia).
        replace (pre ++ run ++ hash :: percent :: m + 48 :: text_of r) with ((pre ++ run ++ [hash]) ++ percent :: m + 48 :: text_of r) by (rewrite <- !app_assoc; reflexivity). apply nth_app_at. }
      assert (N2 : nth (S (S off)) sub 0 = m + 48).
      { unfold sub, off. replace (S (S (length pre + length run))) with (length (pre ++ run ++ [hash; percent])) by (rewrite !app_length; cbn; lia).
        replace (pre ++ run ++ hash :: percent :: m + 48 :: text_of r) with ((pre ++ run ++ [hash; percent]) ++ m + 48 :: text_of r) by (rewrite <- !app_assoc; reflexivity). apply nth_app_at. }
      rewrite N1, N2. replace (S off <? length pre)%nat with false by (symmetry; apply Nat.ltb_ge; unfold off; lia).
      rewrite Z.eqb_refl. replace (is_digit (m + 48)) with true by (unfold is_digit; lia). cbn [negb orb pred].
      replace (0 <? S off)%nat with true by reflexivity. rewrite N0, Z.eqb_refl. cbn [andb].
      replace (off - length pre)%nat with (length run) by (unfold off; lia).
      assert (RUN : firstn (length run) (skipn (length pre) sub) = run) by (unfold sub; rewrite skipn_len; apply firstn_len).
      rewrite RUN.
      specialize (IH (pre ++ run ++ [hash; percent; m + 48]) []). cbn [app length] in IH.
      replace (S off + 2)%nat with (length (pre ++ run ++ [hash; percent; m + 48])) by (unfold off; rewrite !app_length; cbn; lia).
      replace (off + 3)%nat with (length (pre ++ run ++ [hash; percent; m + 48])) by (unfold off; rewrite !app_length; cbn; lia).
      rewrite Nat.add_0_r in IH. replace ((pre ++ run ++ [hash; percent; m + 48]) ++ text_of r) with sub in IH by (unfold sub; rewrite <- !app_assoc; reflexivity).
      rewrite IH; try assumption; try (destruct A as [_ A]; exact A).
      * replace (m + 48 - 48) with m by lia. cbn [render flat_map render1]. fold (render args r).
        match goal with X : supplied args (Quoted m) |- _ => cbn in X; destruct (lookup args m); [reflexivity|congruence] end.
      * rewrite app_nil_r. intros _ (a & E). change [hash; percent; m + 48] with ([hash; percent] ++ [m + 48]) in E. rewrite !app_assoc in E. apply app_inj_tail in E as [_ E]. unfold hash in E. lia.
Qed.
Theorem substitution : forall args s, Forall (supplied args) (pieces None s) ->
  substitute s args (spots (pieces None s) 0) 0 = Some (render args (pieces None s)).
Proof.
  intros args s S. pose proof (subst_render args (pieces None s) [] [] (pieces_digits None s) S) as H. cbn [app length Nat.add] in H. rewrite text_of_pieces in H.
  apply H; [apply (pieces_apart (length s)); [lia|discriminate]|]. intros _ (a & E). destruct a; discriminate.
Qed.

(* ---- the text of a macro ---- *)

Lemma space_plain : forall c, is_space c = true -> is_newline c = false ->
  (c =? 0) = false /\ (c =? slash) = false /\ (c =? backslash) = false /\ is_quote c = false /\ (c =? percent) = false.
Proof. intros c. unfold is_space, is_newline, slash, backslash, is_quote, quote, apostrophe, percent. lia. Qed.

Lemma skip_blanks_tidy : forall q r tail, is_quote q = true -> tidy (Some q) r = true -> is_newline (look (skip_blanks (r ++ tail))) = false.
Proof.
  intros q r tail Q. induction r as [|c r IH]; intros T; [discriminate|]. cbn [tidy] in T. cbn [app skip_blanks].
  apply andb_true_iff in T as [T1 T2]. apply andb_true_iff in T1 as [T0 T1].
  destruct (is_space c && negb (is_newline c)) eqn:B.
  - apply andb_true_iff in B as [B1 B2]. apply negb_true_iff in B2. destruct (space_plain c B1 B2) as (_ & _ & X & Y & _). rewrite X in T2.
    replace (c =? q) with false in T2; [apply IH, T2|]. symmetry. apply Z.eqb_neq. intros ->. congruence.
  - cbn [look]. apply negb_true_iff in T1. exact T1.
Qed.

Lemma skim_string_tidy : forall n q s, (length s <= n)%nat -> is_quote q = true -> tidy (Some q) s = true ->
  exists s1 s2, s = s1 ++ s2 /\ s1 <> [] /\ tidy None s2 = true /\ (forall l off, spots (pieces (Some q) s ++ l) off = spots (pieces None s2 ++ l) (off + length s1)) /\
    forall fuel tail text p, (length s < fuel)%nat ->
      exists text' p', skim_string fuel q (s ++ tail) text (Some p) = Some (s2 ++ tail, text', Some p') /\ text' ++ p' = text ++ p ++ s1.
Proof.
  induction n as [|n IH]; intros q s L Q T; [destruct s; [discriminate|cbn in L; lia]|].
  destruct s as [|c r]; [discriminate|]. cbn [length] in L. cbn [tidy] in T.
  apply andb_true_iff in T as [T1 T]. apply andb_true_iff in T1 as [T0 TN]. apply negb_true_iff in T0, TN.
  destruct (c =? backslash) eqn:B.
  - destruct r as [|d r']; [discriminate|]. cbn [length] in L.
    apply andb_true_iff in T as [T T4]. apply andb_true_iff in T as [T T3]. apply andb_true_iff in T as [T1 T2]. apply negb_true_iff in T1, T2, T3.
    destruct (IH q r' ltac:(lia) Q T4) as (s1 & s2 & -> & N & TD & SP & K).
    exists (c :: d :: s1), s2. split; [reflexivity|]. split; [discriminate|]. split; [exact TD|]. split.
    { intros l off. cbn [pieces]. rewrite B. cbn [app spots psize]. rewrite SP. f_equal. cbn [length]. lia. }
    intros fuel tail text p F. destruct fuel as [|fuel]; [lia|]. cbn [app skim_string]. rewrite B. cbn [look andb]. cbn [length] in F.
    destruct (d =? q) eqn:DQ.
    + destruct (K fuel tail text ((p ++ [c]) ++ [d]) ltac:(lia)) as (t' & p' & E1 & E2). exists t', p'. split; [exact E1|]. rewrite E2. rewrite <- !app_assoc. reflexivity.
    + replace (continuation (d :: (s1 ++ s2) ++ tail)) with (@None (list Z)).
      2:{ symmetry. unfold continuation. rewrite (skip_blanks_tidy q _ tail Q T4). reflexivity. }
      destruct fuel as [|fuel]; [lia|]. cbn [skim_string]. rewrite T1. cbn [andb]. rewrite T2, DQ, T3. cbn [orb].
      destruct (K fuel tail (add_text text (Some p) None) ([c] ++ [d]) ltac:(lia)) as (t' & p' & E1 & E2). exists t', p'. split; [exact E1|]. rewrite E2. cbn. rewrite <- !app_assoc. reflexivity.
  - destruct (c =? q) eqn:CQ.
    + exists [c], r. split; [reflexivity|]. split; [discriminate|]. split; [exact T|]. split.
      { intros l off. cbn [pieces]. rewrite B, CQ. cbn [app spots psize]. f_equal. }
      intros fuel tail text p F. destruct fuel as [|fuel]; [lia|]. cbn [app skim_string]. rewrite B. cbn [andb]. rewrite T0, CQ. cbn [orb].
      exists text, (p ++ [c]). split; reflexivity.
    + destruct (IH q r ltac:(lia) Q T) as (s1 & s2 & -> & N & TD & SP & K).
      exists (c :: s1), s2. split; [reflexivity|]. split; [discriminate|]. split; [exact TD|]. split.
      { intros l off. cbn [pieces]. rewrite B, CQ. cbn [app spots psize]. rewrite SP. f_equal. cbn [length]. lia. }
      intros fuel tail text p F. destruct fuel as [|fuel]; [lia|]. cbn [app skim_string]. rewrite B. cbn [andb]. rewrite T0, CQ, TN. cbn [orb]. cbn [length] in F.
      destruct (K fuel tail text (p ++ [c]) ltac:(lia)) as (t' & p' & E1 & E2). exists t', p'. split; [exact E1|]. rewrite E2, <- app_assoc. reflexivity.
Qed.

(* Blanks up to the end of the line. *)
Lemma skim_blanks : forall w n args nl more text p found, blank w -> is_newline nl = true -> (length w < n)%nat ->
  skim n args (w ++ nl :: more) text (Some p) found = Skimmed (trim_end (text ++ p ++ w)) found (nl :: more).
Proof.
  induction w as [|c w IH]; intros n args nl more text p found W NL F; destruct n as [|n]; try (cbn in F; lia).
  - cbn [app skim look]. rewrite NL, orb_true_r. cbn [add_text]. rewrite app_nil_r. reflexivity.
  - inv W. destruct H1 as [S N]. destruct (space_plain c S N) as (A1 & A2 & A3 & A4 & A5). unfold is_quote in A4. apply orb_false_iff in A4 as [A4 A6].
    cbn [app skim look]. rewrite A1, N. cbn [orb]. rewrite A2, A3, A4, A6, A5. cbn [andb orb]. cbn [length] in F.
    rewrite IH by (assumption || lia). rewrite <- !app_assoc. reflexivity.
Qed.

Lemma look_app : forall r t, r <> [] -> look (r ++ t) = look r.
Proof. intros [|c r] t N; [congruence|reflexivity]. Qed.

Lemma skim_tidy : forall k core n nl more text p found w, (length core <= k)%nat -> tidy None core = true -> blank w -> is_newline nl = true -> (length core + length w < n)%nat ->
  skim n true (core ++ w ++ nl :: more) text (Some p) found =
  Skimmed (trim_end (text ++ p ++ core ++ w)) (found ++ spots (pieces None core) (length text + length p)) (nl :: more).
Proof.
  induction k as [|k IH]; intros core n nl more text p found w L T W NL F.
  { destruct core; [|cbn in L; lia]. cbn [app pieces spots]. rewrite app_nil_r. apply skim_blanks; [assumption|assumption|cbn in F; lia]. }
  destruct core as [|c r]. { cbn [app pieces spots]. rewrite app_nil_r. apply skim_blanks; [assumption|assumption|cbn in F; lia]. }
  cbn [length] in L, F. cbn [tidy] in T. apply andb_true_iff in T as [T1 T]. apply andb_true_iff in T1 as [T0 TN]. apply negb_true_iff in T0, TN.
  apply andb_true_iff in T as [T T3]. apply andb_true_iff in T as [TB TS]. apply negb_true_iff in TB, TS.
  assert (LK : look (r ++ w ++ nl :: more) = look r \/ r = []) by (destruct r; [right; reflexivity|left; reflexivity]).
  assert (LW : (look (w ++ nl :: more) =? slash) = false /\ (look (w ++ nl :: more) =? star) = false /\ is_digit (look (w ++ nl :: more)) = false).
  { assert (is_space (look (w ++ nl :: more)) = true). { destruct W as [|x y [X1 X2]]; cbn; [unfold is_newline, is_space in *; lia|exact X1]. }
    unfold is_space, slash, star, is_digit in *. lia. }
  assert (C1 : (c =? slash) && (look (r ++ w ++ nl :: more) =? slash) = false /\ (c =? slash) && (look (r ++ w ++ nl :: more) =? star) = false).
  { destruct LK as [-> | ->]; [|cbn [app]; destruct LW as (-> & -> & _); rewrite !andb_false_r; auto].
    destruct (c =? slash); [|auto]. cbn [andb] in *. apply orb_false_iff in TS. exact TS. }
  destruct n as [|n]; [lia|]. cbn [app skim look]. rewrite T0, TN. cbn [orb]. destruct C1 as [C1 C2]. rewrite C1, C2, TB.
  fold (is_quote c). destruct (is_quote c) eqn:IQ.
  - (* a literal *)
    destruct (skim_string_tidy (length r) c r (le_n _) IQ T3) as (s1 & s2 & -> & NS & TD & SP & K).
    destruct (K (S (length ((s1 ++ s2) ++ w ++ nl :: more))) (w ++ nl :: more) text (p ++ [c])) as (t' & p' & E1 & E2); [rewrite !app_length; lia|].
    rewrite E1. rewrite app_length in F, L.
    assert (length s1 <> 0)%nat by (destruct s1; [congruence|discriminate]).
    rewrite IH by (assumption || lia). f_equal.
    + rewrite (app_assoc t'), E2. rewrite <- !app_assoc. reflexivity.
    + f_equal. assert (PE : pieces None (c :: s1 ++ s2) = Char c :: pieces (Some c) (s1 ++ s2)).
      { cbn [pieces]. rewrite IQ. assert (c <> percent /\ c <> hash) as [X1 X2] by (unfold is_quote, quote, apostrophe, percent, hash in *; lia).
        apply Z.eqb_neq in X1, X2. rewrite X1, X2. cbn [andb]. destruct (s1 ++ s2) as [|x [|y z]]; reflexivity. }
      rewrite PE. cbn [spots psize app]. pose proof (SP [] (length text + length p + 1)%nat) as SP'. rewrite !app_nil_r in SP'. rewrite SP'. f_equal.
      apply (f_equal (@length Z)) in E2. rewrite !app_length in E2. cbn [length] in E2. lia.
  - assert (PLAIN : forall ps, pieces None (c :: r) = Char c :: ps -> ps = pieces None r -> (c =? percent) && true && is_digit (look (r ++ w ++ nl :: more)) = false ->
      (if (c =? percent) && true && is_digit (look (r ++ w ++ nl :: more)) then
         skim n true (tl (r ++ w ++ nl :: more)) (add_text text (Some ((p ++ [c]) ++ [look (r ++ w ++ nl :: more)])) None) (Some [])
           (found ++ [(length (add_text text (Some ((p ++ [c]) ++ [look (r ++ w ++ nl :: more)])) None) - 2)%nat])
       else skim n true (r ++ w ++ nl :: more) text (Some (p ++ [c])) found) =
      Skimmed (trim_end (text ++ p ++ c :: r ++ w)) (found ++ spots (pieces None (c :: r)) (length text + length p)) (nl :: more)).
    { intros ps E -> ND. rewrite ND, E. rewrite IH by (assumption || lia). cbn [spots psize app]. f_equal; [|rewrite app_length; cbn [length]; do 2 f_equal; lia].
      rewrite <- !app_assoc. reflexivity. }
    destruct r as [|d r'].
    + apply (PLAIN []); [reflexivity|reflexivity|]. cbn [app]. destruct LW as (_ & _ & ->). apply andb_false_r.
    + destruct ((c =? percent) && is_digit d) eqn:PD.
      * apply andb_true_iff in PD as [P1 P2]. cbn [app look tl]. rewrite P1, P2. cbn [andb]. apply Z.eqb_eq in P1. subst c.
        cbn [tidy] in T3. apply andb_true_iff in T3 as [_ T3]. apply andb_true_iff in T3 as [_ T3].
        replace (is_quote d) with false in T3 by (symmetry; unfold is_digit, is_quote, quote, apostrophe in *; lia).
        cbn [length] in L, F. rewrite IH by (assumption || lia). cbn [add_text]. f_equal.
        { rewrite <- !app_assoc. cbn [app]. reflexivity. }
        cbn [pieces]. replace ((percent =? percent) && is_digit d) with true by (rewrite P2; reflexivity). cbn [spots psize].
        rewrite <- app_assoc. f_equal. cbn [app]. rewrite !app_length. cbn [length]. f_equal; [lia|]. f_equal. lia.
      * assert (ND : (c =? percent) && true && is_digit (look ((d :: r') ++ w ++ nl :: more)) = false) by (cbn [app look]; rewrite andb_true_r; exact PD).
        destruct r' as [|e r''].
        { apply (PLAIN (pieces None [d])); [|reflexivity|exact ND]. cbn [pieces]. rewrite PD, IQ. reflexivity. }
        destruct ((c =? hash) && (d =? percent) && is_digit e) eqn:Q.
        2:{ apply (PLAIN (pieces None (d :: e :: r''))); [|reflexivity|exact ND].
            change (pieces None (c :: d :: e :: r'')) with (if (c =? percent) && is_digit d then Param (d - 48) :: pieces None (e :: r'') else
              if (c =? hash) && (d =? percent) && is_digit e then Quoted (e - 48) :: pieces None r'' else Char c :: pieces (if is_quote c then Some c else None) (d :: e :: r'')).
            rewrite PD, Q, IQ. reflexivity. }
        apply andb_true_iff in Q as [Q Q3]. apply andb_true_iff in Q as [Q1 Q2]. apply Z.eqb_eq in Q1, Q2. subst c d.
        rewrite ND. rewrite IH by (assumption || lia). f_equal; [rewrite <- !app_assoc; reflexivity|]. f_equal.
        assert (PE : pieces None (hash :: percent :: e :: r'') = Quoted (e - 48) :: pieces None r'').
        { change (pieces None (hash :: percent :: e :: r'')) with (if (hash =? percent) && is_digit percent then Param (percent - 48) :: pieces None (e :: r'') else
              if (hash =? hash) && (percent =? percent) && is_digit e then Quoted (e - 48) :: pieces None r'' else Char hash :: pieces (if is_quote hash then Some hash else None) (percent :: e :: r'')).
          rewrite Q3. reflexivity. }
        assert (PF : pieces None (percent :: e :: r'') = Param (e - 48) :: pieces None r'').
        { change (pieces None (percent :: e :: r'')) with (if (percent =? percent) && is_digit e then Param (e - 48) :: pieces None r'' else
            match r'' with f :: r3 => if (percent =? hash) && (e =? percent) && is_digit f then Quoted (f - 48) :: pieces None r3 else Char percent :: pieces (if is_quote percent then Some percent else None) (e :: r'')
            | [] => Char percent :: pieces (if is_quote percent then Some percent else None) (e :: r'') end). rewrite Q3. reflexivity. }
        rewrite PE, PF. cbn [spots psize app]. rewrite app_length. cbn [length]. f_equal; [lia|]. f_equal. lia.
Qed.

Lemma skim_none : forall n args c r text found, is_space c = false -> (c =? slash) && ((look r =? slash) || (look r =? star)) = false -> (c =? backslash) = false ->
  skim n args (c :: r) text None found = skim n args (c :: r) text (Some []) found.
Proof.
  intros n args c r text found S C B. destruct n; [reflexivity|]. cbn [skim look]. rewrite B, S. cbn [add_text]. rewrite app_nil_r.
  assert ((c =? slash) && (look r =? star) = false) as -> by (destruct (c =? slash); [cbn in *; apply orb_false_iff in C; tauto|reflexivity]).
  reflexivity.
Qed.
Lemma skim_lead : forall w n args s text found, blank w -> skim (length w + n) args (w ++ s) text None found = skim n args s text None found.
Proof.
  induction w as [|c w IH]; intros n args s text found W; [reflexivity|]. inv W. destruct H1 as [S N].
  destruct (space_plain c S N) as (A1 & A2 & A3 & A4 & A5). unfold is_quote in A4. apply orb_false_iff in A4 as [A4 A6].
  cbn [length Nat.add app skim look]. rewrite A1, N. cbn [orb]. rewrite A2, A3, A4, A6, A5, S. cbn [andb orb]. apply IH. assumption.
Qed.
Lemma drop_blank : forall w s, Forall (fun c => is_space c = true) w -> is_space (look s) = false -> drop_spaces (w ++ s) = s.
Proof.
  induction w as [|c w IH]; intros s W S; cbn [app].
  - destruct s as [|c r]; [reflexivity|]. cbn in *. rewrite S. reflexivity.
  - inv W. cbn [drop_spaces]. rewrite H1. apply IH; assumption.
Qed.
Lemma trim_core : forall core w, trimmed core -> blank w -> trim_end (core ++ w) = core.
Proof.
  intros core w [_ T] W. unfold trim_end. rewrite rev_app_distr, drop_blank; [apply rev_involutive| |exact T].
  apply Forall_rev. eapply Forall_impl; [|exact W]. cbn. tauto.
Qed.
Theorem macro_text : forall w1 core w2 nl more, blank w1 -> blank w2 -> is_newline nl = true -> trimmed core -> tidy None core = true ->
  skim_line true (w1 ++ core ++ w2 ++ nl :: more) = Skimmed core (spots (pieces None core) 0) (nl :: more).
Proof.
  intros w1 core w2 nl more W1 W2 NL TR T. unfold skim_line.
  replace (S (length (w1 ++ core ++ w2 ++ nl :: more))) with (length w1 + S (length (core ++ w2 ++ nl :: more)))%nat by (rewrite (app_length w1); lia).
  rewrite skim_lead by exact W1. destruct core as [|c r].
  - cbn [app pieces spots].
    replace (S (length (w2 ++ nl :: more))) with (length w2 + S (length (nl :: more)))%nat by (rewrite app_length; lia).
    rewrite skim_lead by exact W2. cbn [skim look]. rewrite NL, orb_true_r. reflexivity.
  - cbn [app]. rewrite skim_none.
    + change (c :: r ++ w2 ++ nl :: more) with ((c :: r) ++ w2 ++ nl :: more).
      rewrite (skim_tidy (length (c :: r))); [|lia|exact T|exact W2|exact NL|rewrite !app_length; cbn [length]; lia].
      cbn [app length Nat.add]. f_equal. exact (trim_core (c :: r) w2 TR W2).
    + destruct TR as [TR _]. exact TR.
    + cbn [tidy] in T. apply andb_true_iff in T as [_ T]. apply andb_true_iff in T as [T _]. apply andb_true_iff in T as [_ T]. apply negb_true_iff in T.
      destruct r as [|d r']; [|exact T]. cbn [app].
      assert (X : is_space (look (w2 ++ nl :: more)) = true). { destruct W2 as [|x y [X1 X2]]; cbn; [unfold is_newline, is_space in *; lia|exact X1]. }
      unfold is_space, slash, star in *. lia.
    + cbn [tidy] in T. apply andb_true_iff in T as [_ T]. apply andb_true_iff in T as [T _]. apply andb_true_iff in T as [T _]. apply negb_true_iff in T. exact T.
Qed.

(* ---- arguments ---- *)

Definition stops (t : list Z) : Prop := look t = comma \/ look t = rparen.

Lemma skim_arg_some : forall a n str d t text p, argument str d a = true -> stops t -> (length a < n)%nat ->
  skim_arg n (a ++ t) text (Some p) d str = Some (text ++ p ++ a, t).
Proof.
  induction a as [|c r IH]; intros n str d t text p A ST F; (destruct n as [|n]; [cbn in F; lia|]).
  - cbn [argument] in A. apply andb_true_iff in A as [A1 A2]. apply negb_true_iff in A1. subst str. apply Nat.eqb_eq in A2. subst d.
    cbn [app]. rewrite app_nil_r. destruct t as [|x t']; [destruct ST; discriminate|]. unfold stops in ST. cbn [look] in ST.
    cbn [skim_arg]. destruct ST as [-> | ->]; reflexivity.
  - cbn [length] in F. cbn [argument] in A. apply andb_true_iff in A as [A A4]. apply andb_true_iff in A as [A A3]. apply andb_true_iff in A as [A1 A2].
    apply negb_true_iff in A1, A2, A3. cbn [app skim_arg]. rewrite A1. destruct str.
    + rewrite IH by (assumption || lia). rewrite <- app_assoc. reflexivity.
    + apply andb_true_iff in A4 as [A4 A5]. apply negb_true_iff in A4.
      assert (C1 : (c =? slash) && (look (r ++ t) =? slash) = false /\ (c =? slash) && (look (r ++ t) =? star) = false).
      { destruct r as [|x y].
        - cbn [app]. destruct ST as [-> | ->]; split; apply andb_false_r.
        - cbn [app look] in *. destruct (c =? slash); [|auto]. cbn [andb] in *. apply orb_false_iff in A4. exact A4. }
      destruct C1 as [C1 C2]. rewrite C1, C2, A2, A3.
      destruct (c =? lparen) eqn:EL. { rewrite IH by (assumption || lia). rewrite <- app_assoc. reflexivity. }
      destruct (c =? rparen) eqn:ER. { destruct d as [|m]; [discriminate|]. rewrite IH by (assumption || lia). rewrite <- app_assoc. reflexivity. }
      destruct (c =? comma) eqn:EC.
      * apply andb_true_iff in A5 as [A5 A6]. apply negb_true_iff in A5. rewrite A5.
        replace (c =? quote) with false by (symmetry; unfold comma, quote in *; lia). cbn [andb].
        rewrite IH by (assumption || lia). rewrite <- app_assoc. reflexivity.
      * cbn [andb]. destruct (c =? quote); rewrite IH by (assumption || lia); rewrite <- app_assoc; reflexivity.
Qed.
Lemma skim_arg_none : forall a n t, argument false 0 a = true -> stops t -> (length a < n)%nat ->
  skim_arg n (a ++ t) [] None 0 false = Some (drop_spaces a, t).
Proof.
  induction a as [|c r IH]; intros n t A ST F.
  - destruct n as [|n]; [cbn in F; lia|]. destruct t as [|x t']; [destruct ST; discriminate|]. unfold stops in ST. cbn [look] in ST. cbn [app skim_arg drop_spaces]. destruct ST as [-> | ->]; reflexivity.
  - destruct (is_space c) eqn:SP.
    + destruct n as [|n]; [cbn in F; lia|]. cbn [length] in F. cbn [argument] in A. apply andb_true_iff in A as [A A4]. apply andb_true_iff in A as [A A3]. apply andb_true_iff in A as [A1 A2].
      apply negb_true_iff in A1, A2, A3. apply andb_true_iff in A4 as [A4 A5].
      cbn [app skim_arg drop_spaces]. rewrite A1, SP, A2, A3.
      assert ((c =? slash) = false /\ (c =? lparen) = false /\ (c =? rparen) = false /\ (c =? comma) = false /\ (c =? quote) = false) as (X1 & X2 & X3 & X4 & X5)
        by (unfold is_space, slash, lparen, rparen, comma, quote in *; lia).
      rewrite X1, X2, X3, X4, X5 in *. cbn [andb]. apply IH; [assumption|assumption|lia].
    + pose proof (skim_arg_some (c :: r) n false 0 t [] [] A ST F) as E. cbn [app] in E |- *. cbn [drop_spaces]. rewrite SP.
      rewrite <- E. destruct n as [|n]; [reflexivity|]. cbn [length] in F. cbn [argument] in A. apply andb_true_iff in A as [A A4]. apply andb_true_iff in A as [A A3]. apply andb_true_iff in A as [A1 A2].
      apply negb_true_iff in A1, A2, A3. apply andb_true_iff in A4 as [A4 A5]. apply negb_true_iff in A4.
      cbn [skim_arg]. rewrite A1, SP, A2, A3.
      assert (C1 : (c =? slash) && (look (r ++ t) =? slash) = false /\ (c =? slash) && (look (r ++ t) =? star) = false).
      { destruct r as [|x y].
        - cbn [app]. destruct ST as [-> | ->]; split; apply andb_false_r.
        - cbn [app look] in *. destruct (c =? slash); [|auto]. cbn [andb] in *. apply orb_false_iff in A4. exact A4. }
      destruct C1 as [C1 C2]. rewrite C1, C2. cbn [app].
      destruct (c =? lparen); [reflexivity|]. destruct (c =? rparen); [discriminate A5|]. destruct (c =? comma) eqn:EC; [discriminate A5|]. reflexivity.
Qed.
Lemma read_one : forall a t, argument false 0 a = true -> stops t -> skim_argument (a ++ t) = Some (drop_spaces a, t).
Proof. intros a t A S. apply skim_arg_none; [exact A|exact S|rewrite app_length; lia]. Qed.
Lemma read_args_more : forall p p2 ps s, read_args (p :: p2 :: ps) s =
  match skim_argument s with
  | None => None
  | Some (a, s') => match s' with
                    | c :: r => if c =? comma then match read_args (p2 :: ps) r with Some (l, r') => Some ((p, a) :: l, r') | None => None end else None
                    | [] => None
                    end
  end.
Proof. reflexivity. Qed.
Theorem arguments : forall params args rest, length params = length args -> Forall (fun a => argument false 0 a = true) args ->
  read_args params (call_text args ++ rest) = Some (combine params (map drop_spaces args), rest).
Proof.
  induction params as [|p ps IH]; intros [|a l] rest L F; try discriminate.
  - reflexivity.
  - inv F. cbn [length] in L. injection L as L. destruct ps as [|p2 ps].
    + destruct l; [|discriminate]. cbn [call_text read_args]. rewrite <- app_assoc. rewrite read_one; [|assumption|right; reflexivity].
      cbn [app]. reflexivity.
    + destruct l as [|b l]; [discriminate|].
      change (call_text (a :: b :: l)) with (a ++ comma :: call_text (b :: l)). rewrite <- app_assoc. cbn [app].
      rewrite read_args_more, read_one; [|assumption|left; reflexivity].
      replace (comma =? comma) with true by reflexivity.
      rewrite (IH (b :: l) rest L H2). reflexivity.
Qed.

(* ---- a call, whole ---- *)

Theorem macro_call : forall w1 core w2 nl more params args rest,
  blank w1 -> blank w2 -> is_newline nl = true -> trimmed core -> tidy None core = true ->
  length params = length args -> Forall (fun a => argument false 0 a = true) args ->
  let al := combine params (map drop_spaces args) in Forall (supplied al) (pieces None core) ->
  exists ps, skim_line true (w1 ++ core ++ w2 ++ nl :: more) = Skimmed core ps (nl :: more) /\
    read_args params (call_text args ++ rest) = Some (al, rest) /\ substitute core al ps 0 = Some (render al (pieces None core)).
Proof.
  intros w1 core w2 nl more params args rest W1 W2 NL TR T L F al S. exists (spots (pieces None core) 0).
  split; [apply macro_text; assumption|]. split; [apply arguments; assumption|apply substitution, S].
Qed.
