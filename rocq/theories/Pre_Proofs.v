(* C49: proofs. *)
From Coq Require Import Lia.
From Verif Require Import Base Pre_Model Pre_Spec.

Section Ind.
Variables T C : Type.
Variable P : item T C -> Prop.
Hypothesis PT : forall t, P (IText t).
Hypothesis PG : forall c body more other, Forall P body -> Forall (fun cb => Forall P (snd cb)) more ->
  (forall b, other = Some b -> Forall P b) -> P (IGroup c body more other).
Hypothesis PE : P IEnd.
Hypothesis PI : forall f, Forall P f -> P (IInclude f).
Fixpoint item_ind2 (i : item T C) : P i :=
  let all := fix all (l : list (item T C)) : Forall P l :=
    match l return Forall P l with [] => Forall_nil P | i :: r => Forall_cons i (item_ind2 i) (all r) end in
  match i return P i with
  | IText t => PT t
  | IGroup c body more other =>
      PG c body more other (all body)
        ((fix parts (l : list (C * list (item T C))) : Forall (fun cb => Forall P (snd cb)) l :=
            match l return Forall (fun cb => Forall P (snd cb)) l with
            | [] => Forall_nil _
            | cb :: r => Forall_cons cb (all (snd cb)) (parts r)
            end) more)
        (match other return forall b, other = Some b -> Forall P b with
         | Some b0 => fun b H => match H in _ = y return match y with Some b => Forall P b | None => True end with eq_refl => all b0 end
         | None => fun b H => match H in _ = y return match y with Some b => Forall P b | None => True end with eq_refl => Logic.I end
         end)
  | IEnd => PE
  | IInclude f => PI f (all f)
  end.
End Ind.

Section Parts.
Variables T C : Type.
Fixpoint parts_of (l : list (C * list (item T C))) : list (line T C) :=
  match l with [] => [] | (c, b) :: r => LElseif c :: written b ++ parts_of r end.
Definition other_of (o : option (list (item T C))) : list (line T C) := match o with Some b => LElse :: written b | None => [] end.
End Parts.
Arguments parts_of {T C}. Arguments other_of {T C}.

Lemma lines_group : forall T C c body more other,
  @lines_of T C (IGroup c body more other) = LIf c :: written body ++ parts_of more ++ other_of other ++ [LEndif].
Proof. intros T C c body more other. destruct other; reflexivity. Qed.
Lemma lines_include : forall T C f, @lines_of T C (IInclude f) = [LInclude (written f)].
Proof. reflexivity. Qed.

Section Proofs.
Variables T C E : Type.
Variable perform : T -> E -> E.
Variable eval : C -> E -> bool * bool.
Notation run_line := (run_line perform eval).
Notation run_lines := (run_lines perform eval).
Notation run_main := (run_main perform eval).
Notation means := (means perform eval).
Notation meaning := (meaning perform eval).
Notation choose := (choose eval).
Notation pst := (pst T E).
Notation line := (line T C).
Notation item := (item T C).

Fixpoint parts_mean (other : option (list item)) (l : list (C * list item)) (e : E) : sel T E :=
  match l with
  | [] => match other with Some b => inside (meaning b e) | None => mkSel e [] [] Full end
  | (c, b) :: r => choose c e (inside (meaning b e)) (parts_mean other r e)
  end.
Lemma means_group : forall c body more other e,
  means (IGroup c body more other) e = choose c e (inside (meaning body e)) (parts_mean other more e).
Proof.
  intros c body more other e. change (means (IGroup c body more other) e) with (choose c e (inside (meaning body e))
    ((fix parts (l : list (C * list item)) : sel T E :=
        match l with
        | [] => match other with Some b => inside (meaning b e) | None => mkSel e [] [] Full end
        | (c, b) :: r => choose c e (inside (meaning b e)) (parts r)
        end) more)).
  f_equal. induction more as [|[c' b] r IH]; [reflexivity|]. cbn [parts_mean]. rewrite <- IH. reflexivity.
Qed.
Lemma means_include : forall f e, means (IInclude f) e = closed (meaning f e).
Proof. reflexivity. Qed.

Lemma run_lines_app : forall a b st, run_lines (a ++ b) st = match run_lines a st with Went st' false => run_lines b st' | x => x end.
Proof.
  induction a as [|l r IH]; intros b st; cbn [run_lines app]; [reflexivity|].
  destruct (run_line l st) as [st' s|]; [|reflexivity]. destruct s; [reflexivity|]. apply IH.
Qed.
Lemma run_line_include : forall f st, skp st = false ->
  run_line (LInclude f) st = if negb (may_enter st) then Broken else
    match run_lines f st with Went st' _ => leave (length (ifs st)) st' | Broken => Broken end.
Proof. intros f st S. cbn. rewrite S. reflexivity. Qed.
Lemma run_line_pass : forall l st, skp st = true -> run_line l st = pass eval st l.
Proof. intros l st S. destruct l; cbn; rewrite S; reflexivity. Qed.
Lemma run_line_act : forall l st, skp st = false -> (forall f, l <> LInclude f) -> run_line l st = act perform eval st l.
Proof. intros l st S N. destruct l; cbn; rewrite S; try reflexivity. exfalso; eapply N; reflexivity. Qed.

Definition ACT (st : pst) : Prop := skp st = false /\ lvl st = length (ifs st) /\ Forall (fun f => skip f = false) (ifs st).
Definition SK (st : pst) (up : list flags) (f : flags) (low : list flags) : Prop :=
  skp st = true /\ ifs st = up ++ f :: low /\ lvl st = S (length low) /\ skip f = true /\ Forall (fun f => skip f = false) low.

Lemma skipping_at : forall up f low, is_skipping (up ++ f :: low) (S (length low)) = Some (skip f).
Proof.
  intros up f low. unfold is_skipping. rewrite rev_app_distr. cbn [rev].
  rewrite <- app_assoc. rewrite nth_error_app2 by (rewrite rev_length; lia).
  rewrite rev_length, Nat.sub_diag. reflexivity.
Qed.
Lemma skipping_top : forall f low, is_skipping (f :: low) (S (length low)) = Some (skip f).
Proof. intros f low. apply (skipping_at []). Qed.
Lemma skipping_none : forall l, Forall (fun f => skip f = false) l -> is_skipping l (length l) = Some false.
Proof. intros [|f r] F; [reflexivity|]. cbn [length]. rewrite skipping_top. inversion F; subst. f_equal. assumption. Qed.

Lemma set_same : forall st : pst, set_ifs st (ifs st) (lvl st) (skp st) = st.
Proof. intros []; reflexivity. Qed.

(* ---- a skipped text changes nothing ---- *)

Definition Skips (ls : list line) : Prop :=
  forall st up f low rest, SK st up f low -> run_lines (ls ++ rest) st = run_lines rest st.

Lemma skips_app : forall a b, Skips a -> Skips b -> Skips (a ++ b).
Proof. intros a b A B st up f low rest H. rewrite <- app_assoc, (A _ _ _ _ _ H). eapply B; exact H. Qed.
Lemma skips_nil : Skips [].
Proof. intros st up f low rest H. reflexivity. Qed.
Lemma skips_list : forall l, Forall (fun i => Skips (lines_of i)) l -> Skips (written l).
Proof. induction 1; [apply skips_nil|]. cbn [written]. apply skips_app; assumption. Qed.

(* Directives of the inner group, in a state where it has been pushed. *)
Lemma skips_parts : forall more st g up f low rest, Forall (fun cb => Skips (written (snd cb))) more ->
  SK st (g :: up) f low -> handled g = false -> parse g = false ->
  run_lines (parts_of more ++ rest) st = run_lines rest st.
Proof.
  induction more as [|[c b] r IH]; intros st g up f low rest F H HG PG; [reflexivity|].
  inversion F as [|x y B R]; subst. cbn [parts_of app run_lines].
  pose proof H as (SS & I & L & K & _).
  rewrite run_line_pass by exact SS. unfold pass. rewrite I. cbn [app]. rewrite HG, PG.
  replace (lvl st =? length (g :: up ++ f :: low))%nat with false.
  2:{ symmetry. apply Nat.eqb_neq. rewrite L. cbn [length]. rewrite app_length. cbn [length]. lia. }
  cbn [negb]. rewrite <- app_assoc. cbn [snd] in B. rewrite (B _ _ _ _ _ H). eapply IH; eauto.
Qed.
Lemma skips_item : forall i, Skips (lines_of i).
Proof.
  induction i as [t|c body more other B M O| |f F] using item_ind2.
  - intros st up f low rest (SS & H). cbn [lines_of app run_lines]. rewrite run_line_pass by exact SS. reflexivity.
  - apply skips_list in B.
    assert (M' : Forall (fun cb => Skips (written (snd cb))) more) by (eapply Forall_impl; [|exact M]; intros [c' b'] X; apply skips_list, X).
    intros st up f low rest H. pose proof H as (SS & I & L & K & LO).
    rewrite lines_group. cbn [app run_lines]. rewrite run_line_pass by exact SS. unfold pass at 1.
    set (g := mkFlags false false false).
    set (st1 := set_ifs st (g :: ifs st) (lvl st) true).
    assert (H1 : SK st1 (g :: up) f low). { unfold SK, st1. cbn. rewrite I. auto. }
    rewrite <- !app_assoc. rewrite (B _ _ _ _ _ H1).
    rewrite (skips_parts more st1 g up f low _ M' H1) by reflexivity.
    assert (FIN : forall st2 g2, ifs st2 = g2 :: ifs st -> lvl st2 = lvl st -> skp st2 = true -> env st2 = env st -> kept st2 = kept st -> errs st2 = errs st ->
       run_lines ([LEndif] ++ rest) st2 = run_lines rest st).
    { intros st2 g2 I2 L2 S2 E2 K2 R2. cbn [app run_lines]. rewrite run_line_pass by exact S2. unfold pass. rewrite I2.
      replace (length (ifs st) <? lvl st2)%nat with false.
      2:{ symmetry. apply Nat.ltb_ge. rewrite L2, L, I, app_length. cbn [length]. lia. }
      rewrite L2. replace (is_skipping (ifs st) (lvl st)) with (Some true) by (rewrite I, L, skipping_at, K; reflexivity).
      f_equal. unfold set_ifs. rewrite E2, K2, R2, <- SS. destruct st; reflexivity. }
    destruct other as [b|]; cbn [other_of app].
    + cbn [run_lines]. rewrite run_line_pass by reflexivity. unfold pass. unfold st1. cbn [set_ifs ifs handled parse g lvl].
      rewrite I, L. replace (is_skipping (mkFlags false false true :: up ++ f :: low) (S (length low))) with (Some true).
      2:{ symmetry. pose proof (skipping_at (mkFlags false false true :: up) f low) as X. rewrite K in X. exact X. }
      specialize (O b eq_refl). apply skips_list in O.
      rewrite (O _ (mkFlags false false true :: up) f low). 2:{ unfold SK. cbn. auto. }
      apply (FIN _ (mkFlags false false true)); cbn; rewrite ?I, ?L; reflexivity.
    + apply (FIN _ g); reflexivity.
  - intros st up f low rest (SS & H). cbn [lines_of app run_lines]. rewrite run_line_pass by exact SS. reflexivity.
  - intros st up f' low rest (SS & H). rewrite lines_include. cbn [app run_lines]. rewrite run_line_pass by exact SS. reflexivity.
Qed.
Lemma skips_written : forall l, Skips (written l).
Proof. intros l. apply skips_list. apply Forall_forall. intros i _. apply skips_item. Qed.
Lemma skips_all : forall l : list (C * list item), Forall (fun cb => Skips (written (snd cb))) l.
Proof. intros l. apply Forall_forall. intros [c b] _. apply skips_written. Qed.

(* ---- an active text does what it means ---- *)

Definition upd (st : pst) (m : sel T E) : pst := mkPst (ifs st) (lvl st) false (s_env m) (kept st ++ s_kept m) (errs st ++ s_errs m).
Definition Gives (r : pres T E) (st : pst) (m : sel T E) (k : pst -> pres T E) : Prop :=
  match s_halt m with
  | Full => r = k (upd st m)
  | h => exists l n, r = Went (mkPst (l ++ ifs st) n false (s_env m) (kept st ++ s_kept m) (errs st ++ s_errs m)) true /\ (h = Ended -> l = []) /\ (h = EndedInside -> l <> [])
  end.
Definition Does (ls : list line) (m : E -> sel T E) : Prop :=
  forall st rest, ACT st -> Gives (run_lines (ls ++ rest) st) st (m (env st)) (run_lines rest).

Lemma act_upd : forall st m, ACT st -> ACT (upd st m).
Proof. intros st m (A & B & D). split; [reflexivity|]. split; assumption. Qed.

Lemma does_nil : Does [] (fun e => mkSel e [] [] Full).
Proof. intros st rest (SS & _). unfold Gives. cbn. unfold upd. cbn. rewrite !app_nil_r. rewrite <- SS. destruct st; reflexivity. Qed.

Lemma does_app : forall a b m k, Does a m -> Does b k -> Does (a ++ b) (fun e => sel_then (m e) k).
Proof.
  intros a b m k A B st rest H. rewrite <- app_assoc. specialize (A st (b ++ rest) H). unfold Gives in A |- *. unfold sel_then.
  destruct (s_halt (m (env st))) eqn:HM.
  - specialize (B (upd st (m (env st))) rest (act_upd _ _ H)). rewrite A. unfold Gives in B. cbn [upd env ifs kept errs] in B.
    cbn [s_halt s_env s_kept s_errs]. rewrite !app_assoc. unfold upd in B |- *. cbn [s_env s_kept s_errs].
    rewrite !app_assoc. cbn [env ifs kept errs lvl] in B. exact B.
  - rewrite HM. exact A.
  - rewrite HM. exact A.
Qed.
Lemma does_list : forall l, Forall (fun i => Does (lines_of i) (means i)) l -> Does (written l) (meaning l).
Proof. induction 1; [apply does_nil|]. cbn [written meaning]. apply does_app; assumption. Qed.

(* After the branch taken. *)
Lemma endif_active : forall st f low rest, ACT st -> ifs st = f :: low ->
  run_lines (LEndif :: rest) st = run_lines rest (set_ifs st low (length low) false).
Proof.
  intros st f low rest (SS & L & F) I. cbn [run_lines]. rewrite run_line_act by (exact SS || discriminate). unfold act. rewrite I.
  rewrite I in L. cbn [length] in L. replace (length low <? lvl st)%nat with true by (symmetry; apply Nat.ltb_lt; lia). rewrite SS. reflexivity.
Qed.
Lemma endif_skipped : forall st f low rest, SK st [] f low ->
  run_lines (LEndif :: rest) st = run_lines rest (set_ifs st low (length low) false).
Proof.
  intros st f low rest (SS & I & L & K & F). cbn [app] in I. cbn [run_lines]. rewrite run_line_pass by exact SS. unfold pass. rewrite I.
  rewrite L. replace (length low <? S (length low))%nat with true by (symmetry; apply Nat.ltb_lt; lia).
  rewrite (skipping_none low F). reflexivity.
Qed.
(* In the skipped part that follows a branch taken, all up to #endif is skipped. *)
Lemma after_taken : forall more st f low other rest, SK st [] f low -> parse f = true -> handled f = false ->
  run_lines (parts_of more ++ other_of other ++ LEndif :: rest) st = run_lines rest (set_ifs st low (length low) false).
Proof.
  induction more as [|[c b] r IH]; intros st f low other rest H PF HF; cbn [parts_of app].
  - destruct other as [b|]; cbn [other_of app]; [|eapply endif_skipped; eauto].
    pose proof H as (SS & I & L & K & F). cbn [run_lines]. rewrite run_line_pass by exact SS. unfold pass. rewrite I. cbn [app]. rewrite HF, PF.
    rewrite (skips_written b _ _ _ _ _ H). eapply endif_skipped; eauto.
  - pose proof H as (SS & I & L & K & F). cbn [run_lines]. rewrite run_line_pass by exact SS. unfold pass. rewrite I. cbn [app]. rewrite HF, PF.
    rewrite <- app_assoc, (skips_written b _ _ _ _ _ H). eapply IH; eauto.
Qed.
Lemma taken_end : forall more st f low other rest, ACT st -> ifs st = f :: low -> parse f = true -> handled f = false ->
  run_lines (parts_of more ++ other_of other ++ LEndif :: rest) st = run_lines rest (set_ifs st low (length low) false).
Proof.
  intros more st f low other rest H I PF HF. pose proof H as (SS & L & F). rewrite I in F. inversion F as [|x y SF FL]; subst. rewrite I in L. cbn [length] in L.
  destruct more as [|[c b] r]; cbn [parts_of app].
  - destruct other as [b|]; cbn [other_of app]; [|eapply endif_active; eauto].
    cbn [run_lines]. rewrite run_line_act by (exact SS || discriminate). unfold act. rewrite I, HF. cbn [note_if].
    assert (H2 : SK (set_ifs st (mkFlags true (parse f) true :: low) (lvl st) true) [] (mkFlags true (parse f) true) low).
    { split; [reflexivity|]. split; [reflexivity|]. split; [exact L|]. split; [reflexivity|exact FL]. }
    rewrite (skips_written b _ _ _ _ _ H2). rewrite (endif_skipped _ _ _ _ H2). reflexivity.
  - cbn [run_lines]. rewrite run_line_act by (exact SS || discriminate). unfold act. rewrite I, HF. cbn [note_if].
    assert (H2 : SK (set_ifs st (mkFlags true (parse f) false :: low) (lvl st) true) [] (mkFlags true (parse f) false) low).
    { split; [reflexivity|]. split; [reflexivity|]. split; [exact L|]. split; [reflexivity|exact FL]. }
    rewrite <- app_assoc, (skips_written b _ _ _ _ _ H2). rewrite (after_taken r _ _ _ other rest H2) by (exact PF || reflexivity). reflexivity.
Qed.

(* A branch taken: from just after its directive. *)
Lemma branch_taken : forall st f low more other rest m ls, Does ls m -> ACT st -> ifs st = f :: low -> parse f = true -> handled f = false ->
  Gives (run_lines (ls ++ parts_of more ++ other_of other ++ LEndif :: rest) st) (set_ifs st low (length low) false) (inside (m (env st))) (run_lines rest).
Proof.
  intros st f low more other rest m ls D A I PF HF. specialize (D st (parts_of more ++ other_of other ++ LEndif :: rest) A).
  unfold Gives in D |- *. cbn [inside s_halt]. destruct (s_halt (m (env st))) eqn:HM.
  - rewrite D. rewrite (taken_end more _ f low other rest (act_upd _ _ A)) by assumption. reflexivity.
  - destruct D as (l & n & R & D1 & D2). exists (l ++ [f]), n. rewrite R. cbn. rewrite I, <- app_assoc. cbn [app].
    split; [reflexivity|]. split; [discriminate|]. intros _ X. apply app_eq_nil in X as [_ X]. discriminate.
  - destruct D as (l & n & R & D1 & D2). exists (l ++ [f]), n. rewrite R. cbn. rewrite I, <- app_assoc. cbn [app].
    split; [reflexivity|]. split; [discriminate|]. intros _ X. apply app_eq_nil in X as [_ X]. discriminate.
Qed.
Lemma other_taken : forall st f low rest m ls, Does ls m -> ACT st -> ifs st = f :: low ->
  Gives (run_lines (ls ++ LEndif :: rest) st) (set_ifs st low (length low) false) (inside (m (env st))) (run_lines rest).
Proof.
  intros st f low rest m ls D A I. specialize (D st (LEndif :: rest) A).
  unfold Gives in D |- *. cbn [inside s_halt]. destruct (s_halt (m (env st))) eqn:HM.
  - rewrite D. rewrite (endif_active _ f low rest (act_upd _ _ A)) by assumption. reflexivity.
  - destruct D as (l & n & R & D1 & D2). exists (l ++ [f]), n. rewrite R. cbn. rewrite I, <- app_assoc. cbn [app].
    split; [reflexivity|]. split; [discriminate|]. intros _ X. apply app_eq_nil in X as [_ X]. discriminate.
  - destruct D as (l & n & R & D1 & D2). exists (l ++ [f]), n. rewrite R. cbn. rewrite I, <- app_assoc. cbn [app].
    split; [reflexivity|]. split; [discriminate|]. intros _ X. apply app_eq_nil in X as [_ X]. discriminate.
Qed.

Lemma gives_errs : forall r st m k (bad : bool) x, Gives r (note_if bad ECond st) x k -> 
  m = mkSel (s_env x) (s_kept x) ((if bad then [ECond] else []) ++ s_errs x) (s_halt x) -> Gives r st m k.
Proof.
  intros r st m k bad x G ->. unfold Gives in G |- *. cbn [s_halt s_env s_kept s_errs]. destruct bad; cbn [note_if] in G; [|exact G].
  unfold upd, note in G |- *. cbn [ifs lvl kept errs s_env s_kept s_errs] in G |- *. rewrite <- app_assoc in G. exact G.
Qed.

(* No branch so far. *)
Lemma parts_do : forall more other st f low rest,
  Forall (fun cb => Does (written (snd cb)) (meaning (snd cb))) more -> (forall b, other = Some b -> Does (written b) (meaning b)) ->
  SK st [] f low -> parse f = false -> handled f = false ->
  Gives (run_lines (parts_of more ++ other_of other ++ LEndif :: rest) st) (set_ifs st low (length low) false) (parts_mean other more (env st)) (run_lines rest).
Proof.
  induction more as [|[c b] r IH]; intros other st f low rest F O H PF HF; cbn [parts_of app parts_mean]; pose proof H as (SS & I & L & K & FL); cbn [app] in I.
  - destruct other as [b|]; cbn [other_of app].
    + cbn [run_lines]. rewrite run_line_pass by exact SS. unfold pass. rewrite I, HF, PF, L, skipping_top. cbn [skip].
      refine (other_taken (set_ifs st (mkFlags false false true :: low) (S (length low)) false) (mkFlags false false true) low rest _ _ (O b eq_refl) _ eq_refl).
      split; [reflexivity|]. split; [reflexivity|]. constructor; [reflexivity|exact FL].
    + rewrite (endif_skipped _ _ _ _ H). unfold Gives. cbn. unfold upd. cbn. rewrite !app_nil_r. reflexivity.
  - inversion F as [|x y FB FR]; subst. cbn [snd] in FB. cbn [run_lines]. rewrite run_line_pass by exact SS. unfold pass. rewrite I, HF, PF, L. cbn [length].
    rewrite Nat.eqb_refl. cbn [negb]. unfold choose. destruct (eval c (env st)) as [v bad] eqn:EV.
    assert (L2 : lvl (note_if bad ECond st) = S (length low)) by (destruct bad; exact L). rewrite L2, skipping_top. cbn [skip].
    destruct v; cbn [negb].
    + rewrite <- app_assoc. eapply gives_errs; [|reflexivity]. 
      set (st2 := set_ifs (note_if bad ECond st) (mkFlags false true false :: low) (S (length low)) false).
      replace (note_if bad ECond (set_ifs st low (length low) false)) with (set_ifs st2 low (length low) false) by (unfold st2; destruct bad; reflexivity).
      replace (env st) with (env st2) by (unfold st2; destruct bad; reflexivity).
      fold st2.
      apply (branch_taken st2 (mkFlags false true false) low); try reflexivity; [exact FB|].
      unfold st2. split; [reflexivity|]. split; [reflexivity|]. constructor; [reflexivity|exact FL].
    + eapply gives_errs; [|reflexivity].
      set (st2 := set_ifs (note_if bad ECond st) (mkFlags true false false :: low) (S (length low)) true).
      replace (note_if bad ECond (set_ifs st low (length low) false)) with (set_ifs st2 low (length low) false) by (unfold st2; destruct bad; reflexivity).
      replace (env st) with (env st2) by (unfold st2; destruct bad; reflexivity).
      fold st2.
      assert (H2 : SK st2 [] (mkFlags true false false) low).
      { unfold st2. split; [reflexivity|]. split; [reflexivity|]. split; [reflexivity|]. split; [reflexivity|exact FL]. }
      rewrite <- app_assoc, (skips_written b _ _ _ _ _ H2). eapply IH; eauto.
Qed.

Lemma does_group : forall c body more other, Does (written body) (meaning body) ->
  Forall (fun cb => Does (written (snd cb)) (meaning (snd cb))) more -> (forall b, other = Some b -> Does (written b) (meaning b)) ->
  Does (lines_of (IGroup c body more other)) (means (IGroup c body more other)).
Proof.
  intros c body more other B M O st rest (SS & L & F). rewrite lines_group, means_group.
  cbn [app run_lines]. rewrite run_line_act by (exact SS || discriminate). unfold act, choose.
  destruct (eval c (env st)) as [v bad] eqn:EV.
  rewrite <- !app_assoc. cbn [app].
  assert (I1 : ifs (note_if bad ECond st) = ifs st) by (destruct bad; reflexivity). rewrite I1. cbn [length]. rewrite skipping_top. cbn [skip].
  assert (BACK : forall g s, set_ifs (set_ifs (note_if bad ECond st) (g :: ifs st) (S (length (ifs st))) s) (ifs st) (length (ifs st)) false = note_if bad ECond st).
  { intros g s. unfold set_ifs. cbn. destruct bad; cbn; rewrite <- L, <- SS; destruct st; reflexivity. }
  destruct v; cbn [negb].
  - eapply gives_errs; [|reflexivity].
    set (st2 := set_ifs (note_if bad ECond st) (mkFlags false true false :: ifs st) (S (length (ifs st))) false).
    rewrite <- (BACK (mkFlags false true false) false). fold st2.
    replace (env st) with (env st2) by (unfold st2; destruct bad; reflexivity).
    apply (branch_taken st2 (mkFlags false true false) (ifs st)); try reflexivity; [exact B|].
    unfold st2. split; [reflexivity|]. split; [reflexivity|]. constructor; [reflexivity|exact F].
  - eapply gives_errs; [|reflexivity].
    set (st2 := set_ifs (note_if bad ECond st) (mkFlags true false false :: ifs st) (S (length (ifs st))) true).
    rewrite <- (BACK (mkFlags true false false) true). fold st2.
    replace (env st) with (env st2) by (unfold st2; destruct bad; reflexivity).
    assert (H2 : SK st2 [] (mkFlags true false false) (ifs st)).
    { unfold st2. split; [reflexivity|]. split; [reflexivity|]. split; [reflexivity|]. split; [reflexivity|exact F]. }
    rewrite (skips_written body _ _ _ _ _ H2). eapply parts_do; eauto.
Qed.

Lemma skipn_app_exact : forall (A : Type) (l r : list A), skipn (length (l ++ r) - length r) (l ++ r) = r.
Proof.
  intros A l r. rewrite app_length. replace (length l + length r - length r)%nat with (length l) by lia.
  rewrite skipn_app, skipn_all, Nat.sub_diag. reflexivity.
Qed.
Lemma does_include : forall f, Does (written f) (meaning f) -> Does (lines_of (IInclude f)) (means (IInclude f)).
Proof.
  intros f D st rest A. pose proof A as (SS & L & F). rewrite lines_include, means_include. cbn [app run_lines].
  rewrite run_line_include by exact SS.
  assert (ME : may_enter st = true). { unfold may_enter. rewrite L, (skipping_none _ F). apply Nat.eqb_refl. }
  rewrite ME. cbn [negb].
  specialize (D st [] A). rewrite app_nil_r in D. unfold Gives in D |- *. cbn [closed s_halt].
  assert (LV : forall l n m, leave (length (ifs st)) (mkPst (l ++ ifs st) n false (s_env m) (kept st ++ s_kept m) (errs st ++ s_errs m)) = Went (upd st m) false).
  { intros l n m. unfold leave. cbn [ifs]. rewrite skipn_app_exact, Nat.eqb_refl. cbn [negb]. rewrite (skipping_none _ F). unfold upd, set_ifs. cbn. rewrite L. reflexivity. }
  destruct (s_halt (meaning f (env st))) eqn:HM.
  - rewrite D. cbn [run_lines]. unfold upd at 1. rewrite (LV [] (lvl st)). unfold closed, upd. cbn. reflexivity.
  - destruct D as (l & n & R & _). rewrite R, LV. reflexivity.
  - destruct D as (l & n & R & _). rewrite R, LV. reflexivity.
Qed.

Lemma does_item : forall i, Does (lines_of i) (means i).
Proof.
  induction i as [t|c body more other B M O| |f F] using item_ind2.
  - intros st rest (SS & L & F). cbn [lines_of app run_lines]. rewrite run_line_act by (exact SS || discriminate). unfold act, Gives. cbn.
    unfold upd. cbn. rewrite app_nil_r, SS. reflexivity.
  - apply does_group; [apply does_list, B| |intros b HB; apply does_list, O, HB].
    eapply Forall_impl; [|exact M]. intros cb X. apply does_list, X.
  - intros st rest (SS & L & F). cbn [lines_of app run_lines]. rewrite run_line_act by (exact SS || discriminate). unfold act, Gives. cbn.
    exists [], (lvl st). split; [|split; [reflexivity|discriminate]]. rewrite !app_nil_r. cbn. rewrite <- SS. destruct st; reflexivity.
  - apply does_include, does_list, F.
Qed.
Lemma does_written : forall l, Does (written l) (meaning l).
Proof. intros l. apply does_list, Forall_forall. intros i _. apply does_item. Qed.

Theorem selected : forall l e,
  let m := meaning l e in
  exists st stop, run_main (written l) e = Went st stop /\ env st = s_env m /\ kept st = s_kept m /\
    errs st = s_errs m ++ (match s_halt m with EndedInside => [EUnclosed] | _ => [] end).
Proof.
  intros l e m. unfold m. assert (A : ACT (mkPst [] 0 false e [] [])) by (split; [reflexivity|split; [reflexivity|constructor]]).
  pose proof (does_written l _ [] A) as D. rewrite app_nil_r in D. unfold Gives in D. cbn [env ifs kept errs app] in D. unfold Pre_Model.run_main.
  destruct (s_halt (meaning l e)) eqn:HM.
  - rewrite D. cbn. eexists _, _. split; [reflexivity|]. cbn. rewrite app_nil_r. auto.
  - destruct D as (x & n & R & X & _). rewrite (X eq_refl) in R. rewrite R. cbn. eexists _, _. split; [reflexivity|]. cbn. rewrite app_nil_r. auto.
  - destruct D as (x & n & R & _ & X). rewrite R. cbn. rewrite app_nil_r. destruct x as [|y x']; [exfalso; apply X; reflexivity|].
    eexists _, _. split; [reflexivity|]. cbn. auto.
Qed.
End Proofs.
