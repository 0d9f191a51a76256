(* C49: counting #if and #endif; when the reader keeps its footing. *)
From Coq Require Import Lia.
From Verif Require Import Base Pre_Model Pre_Spec Pre_Proofs.

Section LineInd.
Variables T C : Type.
Variable P : line T C -> Prop.
Hypothesis PO : forall l, (forall f, l <> LInclude f) -> P l.
Hypothesis PI : forall f, Forall P f -> P (LInclude f).
Fixpoint line_ind2 (l : line T C) : P l :=
  match l return P l with
  | LInclude f => PI f ((fix all (l : list (line T C)) : Forall P l :=
      match l return Forall P l with [] => Forall_nil P | i :: r => Forall_cons i (line_ind2 i) (all r) end) f)
  | LText t => PO (LText t) ltac:(discriminate)
  | LIf c => PO (LIf c) ltac:(discriminate)
  | LElseif c => PO (LElseif c) ltac:(discriminate)
  | LElse => PO LElse ltac:(discriminate)
  | LEndif => PO LEndif ltac:(discriminate)
  | LEnd => PO LEnd ltac:(discriminate)
  end.
End LineInd.

Section Own2.
Variables T C : Type.
Fixpoint own_from (ls : list (line T C)) (n : nat) : bool :=
  match ls with
  | [] => true
  | l :: r => own_sections l && negb (closer l && (n =? 0)%nat) && own_from r (deeper l n)
  end.
End Own2.
Arguments own_from {T C}.
Lemma own_include : forall T C f, @own_sections T C (LInclude f) = own_from f O.
Proof. reflexivity. Qed.

Section Nesting.
Variables T C E : Type.
Variable perform : T -> E -> E.
Variable eval : C -> E -> bool * bool.
Notation run_line := (run_line perform eval).
Notation run_lines := (run_lines perform eval).
Notation run_main := (run_main perform eval).
Notation pst := (pst T E).
Notation line := (line T C).
Notation ACT := (ACT T E).
Notation SK := (SK T E).

Definition Inv (st : pst) : Prop := ACT st \/ exists up f low, SK st up f low.
Notation live := (Forall (fun f => skip f = false)).

Definition step_ok (l : line) (st : pst) (x base : list flags) : Prop :=
  exists st' s x' es, run_line l st = Went st' s /\ Inv st' /\ ifs st' = x' ++ base /\ length x' = deeper l (length x) /\
    errs st' = errs st ++ es /\ (In ENoIf es <-> closer l = true /\ ifs st = []) /\ ~ In EUnclosed es /\ (s = true -> l = LEnd).

Lemma cons_app : forall (A : Type) (f : A) r x base, f :: r = x ++ base -> x <> [] -> exists x', x = f :: x' /\ r = x' ++ base.
Proof. intros A f r [|g x'] base H N; [congruence|]. injection H as <- H. eauto. Qed.
Lemma live_app : forall a b, live (a ++ b) -> live b.
Proof. intros a b H. apply Forall_app in H. tauto. Qed.

Lemma in_note : forall (b : bool) e (st : pst), errs (note_if b e st) = errs st ++ (if b then [e] else []).
Proof. intros [] e st; cbn; [reflexivity|rewrite app_nil_r; reflexivity]. Qed.
Lemma note_if_ifs : forall (b : bool) e (st : pst), ifs (note_if b e st) = ifs st. Proof. intros [] e st; reflexivity. Qed.
Lemma note_if_lvl : forall (b : bool) e (st : pst), lvl (note_if b e st) = lvl st. Proof. intros [] e st; reflexivity. Qed.

Lemma step_act : forall l st x base, (forall f, l <> LInclude f) -> ACT st -> ifs st = x ++ base -> (closer l = true -> x <> [] \/ ifs st = []) -> step_ok l st x base.
Proof.
  intros l st x base NI A I OK. pose proof A as (SS & L & F). unfold step_ok. rewrite run_line_act by assumption.
  assert (NIL : ~ (false = true /\ ifs st = [])) by (intros [X _]; discriminate).
  destruct l as [t|c|c| | | |f0]; cbn [act closer deeper] in *.
  - eexists _, _, x, []. split; [reflexivity|]. split; [left; split; [exact SS|split; [exact L|exact F]]|]. cbn. rewrite app_nil_r. intuition (try discriminate; auto).
  - destruct (eval c (env st)) as [v bad]. rewrite note_if_ifs. cbn [length]. rewrite skipping_top. cbn [skip].
    eexists _, _, (mkFlags (negb v) v false :: x), (if bad then [ECond] else []). split; [reflexivity|]. split.
    { destruct v; cbn [negb].
      + left. split; [reflexivity|]. split; [reflexivity|]. cbn. constructor; [reflexivity|exact F].
      + right. exists [], (mkFlags true false false), (ifs st). split; [reflexivity|]. split; [reflexivity|]. split; [reflexivity|]. split; [reflexivity|exact F]. }
    cbn. rewrite I, in_note. destruct bad; cbn; intuition (try discriminate; auto).
  - destruct (ifs st) as [|f r] eqn:IF.
    + eexists _, _, x, [ENoIf]. split; [reflexivity|]. split; [left; split; [exact SS|split; [cbn; rewrite IF; exact L|cbn; rewrite IF; constructor]]|].
      cbn. rewrite IF. intuition (try discriminate; auto).
    + destruct (OK eq_refl) as [N|N]; [|discriminate]. destruct (cons_app _ _ _ _ _ I N) as (x' & -> & ->).
      inversion F as [|a b FS FL]; subst.
      eexists _, _, (mkFlags true (parse f) (handled f) :: x'), (if handled f then [EElseifAfterElse] else []). split; [reflexivity|]. split.
      { right. exists [], (mkFlags true (parse f) (handled f)), (x' ++ base). split; [reflexivity|]. split; [reflexivity|]. split; [|split; [reflexivity|exact FL]].
        cbn. rewrite note_if_lvl, L. reflexivity. }
      cbn. rewrite in_note. destruct (handled f); cbn; intuition (try discriminate; auto).
  - destruct (ifs st) as [|f r] eqn:IF.
    + eexists _, _, x, [ENoIf]. split; [reflexivity|]. split; [left; split; [exact SS|split; [cbn; rewrite IF; exact L|cbn; rewrite IF; constructor]]|].
      cbn. rewrite IF. intuition (try discriminate; auto).
    + destruct (OK eq_refl) as [N|N]; [|discriminate]. destruct (cons_app _ _ _ _ _ I N) as (x' & -> & ->).
      inversion F as [|a b FS FL]; subst.
      eexists _, _, (mkFlags true (parse f) true :: x'), (if handled f then [ETwoElse] else []). split; [reflexivity|]. split.
      { right. exists [], (mkFlags true (parse f) true), (x' ++ base). split; [reflexivity|]. split; [reflexivity|]. split; [|split; [reflexivity|exact FL]].
        cbn. rewrite note_if_lvl, L. reflexivity. }
      cbn. rewrite in_note. destruct (handled f); cbn; intuition (try discriminate; auto).
  - destruct (ifs st) as [|f r] eqn:IF.
    + eexists _, _, x, [ENoIf]. split; [reflexivity|]. split; [left; split; [exact SS|split; [cbn; rewrite IF; exact L|cbn; rewrite IF; constructor]]|].
      assert (x = []) by (destruct x; [reflexivity|discriminate]). subst x.
      cbn. rewrite IF. intuition (try discriminate; auto).
    + destruct (OK eq_refl) as [N|N]; [|discriminate]. destruct (cons_app _ _ _ _ _ I N) as (x' & -> & ->).
      inversion F as [|a b FS FL]; subst. cbn [length] in L.
      eexists _, _, x', []. split; [reflexivity|]. split.
      { left. split; [exact SS|]. split; [|exact FL]. cbn [set_ifs lvl ifs]. destruct (Nat.ltb_spec (length (x' ++ base)) (lvl st)); [reflexivity|lia]. }
      cbn. rewrite app_nil_r. intuition (try discriminate; auto).
  - eexists _, _, x, []. split; [reflexivity|]. split; [left; exact A|]. rewrite app_nil_r. cbn. intuition (try discriminate; auto).
  - exfalso. eapply NI; reflexivity.
Qed.

Lemma step_skip : forall l st up f low x base, SK st up f low -> ifs st = x ++ base -> live base -> step_ok l st x base.
Proof.
  intros l st up f low x base H I LB. pose proof H as (SS & J & L & K & FL). unfold step_ok. rewrite run_line_pass by assumption.
  assert (XN : x <> []).
  { intros ->. cbn [app] in I. rewrite <- I, J in LB. apply live_app in LB. inversion LB; congruence. }
  assert (IN : ifs st <> []) by (rewrite I; destruct x; [congruence|discriminate]).
  (* the entry at the level lies in x, so the entries above the base are x = up ++ f :: mid *)
  destruct l as [t|c|c| | | |f0]; cbn [pass closer deeper].
  - eexists _, _, x, []. split; [reflexivity|]. split; [right; exists up, f, low; exact H|]. rewrite app_nil_r. cbn. intuition (try discriminate; auto).
  - eexists _, _, (mkFlags false false false :: x), []. split; [reflexivity|]. split.
    { right. exists (mkFlags false false false :: up), f, low. unfold Pre_Proofs.SK. cbn. rewrite J. auto. }
    cbn. rewrite I, app_nil_r. intuition (try discriminate; auto).
  - destruct (ifs st) as [|g r] eqn:IF; [congruence|]. destruct (cons_app _ _ _ _ _ I XN) as (x' & -> & ->).
    destruct (handled g) eqn:HG; [eexists _, _, (g :: x'), [EElseifAfterElse]; split; [reflexivity|]; split; [right; exists up, f, low; unfold Pre_Proofs.SK; cbn; rewrite IF; auto|]; cbn; rewrite IF; intuition (try discriminate; auto)|].
    destruct (parse g) eqn:PG; [eexists _, _, (g :: x'), []; split; [reflexivity|]; split; [right; exists up, f, low; unfold Pre_Proofs.SK; rewrite IF; auto|]; rewrite app_nil_r; cbn; intuition (try discriminate; auto)|].
    destruct (lvl st =? length (g :: x' ++ base))%nat eqn:LQ; cbn [negb].
    2:{ eexists _, _, (g :: x'), []; split; [reflexivity|]; split; [right; exists up, f, low; unfold Pre_Proofs.SK; rewrite IF; auto|]; rewrite app_nil_r; cbn; intuition (try discriminate; auto). }
    apply Nat.eqb_eq in LQ. assert (up = [] /\ f = g /\ low = x' ++ base) as (-> & -> & ->).
    { destruct up as [|u up']. { cbn [app] in J. injection J as -> JL; subst low. auto. }
      exfalso. rewrite J in LQ. rewrite L in LQ. cbn [app length] in LQ. rewrite app_length in LQ. cbn [length] in LQ. lia. }
    destruct (eval c (env st)) as [v bad]. rewrite note_if_lvl, L, skipping_top. cbn [skip].
    eexists _, _, (mkFlags (negb v) v false :: x'), (if bad then [ECond] else []). split; [reflexivity|]. split.
    { destruct v; cbn [negb].
      - left. split; [reflexivity|]. split; [reflexivity|]. cbn. constructor; [reflexivity|exact FL].
      - right. exists [], (mkFlags true false false), (x' ++ base). unfold Pre_Proofs.SK. cbn. auto. }
    cbn. rewrite in_note. destruct bad; cbn; rewrite ?app_nil_r; intuition (try discriminate; auto).
  - destruct (ifs st) as [|g r] eqn:IF; [congruence|]. destruct (cons_app _ _ _ _ _ I XN) as (x' & -> & ->).
    destruct (handled g) eqn:HG; [eexists _, _, (g :: x'), [ETwoElse]; split; [reflexivity|]; split; [right; exists up, f, low; unfold Pre_Proofs.SK; cbn; rewrite IF; auto|]; cbn; rewrite IF; intuition (try discriminate; auto)|].
    destruct (parse g) eqn:PG; [eexists _, _, (g :: x'), []; split; [reflexivity|]; split; [right; exists up, f, low; unfold Pre_Proofs.SK; rewrite IF; auto|]; rewrite app_nil_r; cbn; intuition (try discriminate; auto)|].
    set (g' := mkFlags false false true).
    destruct up as [|u up'].
    + cbn [app] in J. injection J as -> JL; subst low. rewrite L, skipping_top. cbn [skip].
      eexists _, _, (g' :: x'), []. split; [reflexivity|]. split.
      { left. split; [reflexivity|]. split; [reflexivity|]. cbn. constructor; [reflexivity|exact FL]. }
      cbn. rewrite app_nil_r. intuition (try discriminate; auto).
    + cbn [app] in J. injection J as -> J. rewrite J, L. pose proof (skipping_at (g' :: up') f low) as X. cbn [app] in X. rewrite X, K.
      eexists _, _, (g' :: x'), []. split; [reflexivity|]. split.
      { right. exists (g' :: up'), f, low. unfold Pre_Proofs.SK. cbn. auto. }
      cbn. rewrite app_nil_r, J. intuition (try discriminate; auto).
  - destruct (ifs st) as [|g r] eqn:IF; [congruence|]. destruct (cons_app _ _ _ _ _ I XN) as (x' & -> & ->).
    destruct up as [|u up'].
    + cbn [app] in J. injection J as -> JL; subst low. rewrite L.
      destruct (Nat.ltb_spec (length (x' ++ base)) (S (length (x' ++ base)))); [|lia].
      rewrite (skipping_none _ FL). eexists _, _, x', []. split; [reflexivity|]. split.
      { left. split; [reflexivity|]. split; [reflexivity|]. exact FL. }
      cbn. rewrite app_nil_r. intuition (try discriminate; auto).
    + cbn [app] in J. injection J as -> J. rewrite L, J.
      destruct (Nat.ltb_spec (length (up' ++ f :: low)) (S (length low))); [rewrite app_length in *; cbn [length] in *; lia|].
      rewrite skipping_at, K. eexists _, _, x', []. split; [reflexivity|]. split.
      { right. exists up', f, low. unfold Pre_Proofs.SK. cbn. auto. }
      cbn. rewrite app_nil_r, J. intuition (try discriminate; auto).
  - eexists _, _, x, []. split; [reflexivity|]. split; [right; exists up, f, low; exact H|]. rewrite app_nil_r. cbn. intuition (try discriminate; auto).
  - eexists _, _, x, []. split; [reflexivity|]. split; [right; exists up, f, low; exact H|]. rewrite app_nil_r. cbn. intuition (try discriminate; auto).
Qed.

Lemma step_any : forall l st x base, (forall f, l <> LInclude f) -> Inv st -> ifs st = x ++ base -> live base -> (closer l = true -> x <> [] \/ ifs st = []) -> step_ok l st x base.
Proof. intros l st x base NI [A|(up & f & low & H)] I LB OK; [apply step_act; auto|eapply step_skip; eauto]. Qed.

(* ---- the reader never loses its footing if files keep to their own sections ---- *)

Definition keeps (l : line) : Prop := own_sections l = true -> forall st x base, Inv st -> ifs st = x ++ base -> live base ->
  (closer l = true -> x <> [] \/ ifs st = []) -> exists st' s x', run_line l st = Went st' s /\ Inv st' /\ ifs st' = x' ++ base /\ (length x' = deeper l (length x)).

Lemma inv_start : forall st, skp st = false -> lvl st = length (ifs st) -> live (ifs st) -> Inv st.
Proof. intros st A B D. left. split; [exact A|split; assumption]. Qed.

Lemma keeps_list : forall f, Forall keeps f -> forall st x base, own_from f (length x) = true -> Inv st -> ifs st = x ++ base -> live base ->
  exists st' s x', run_lines f st = Went st' s /\ Inv st' /\ ifs st' = x' ++ base.
Proof.
  induction 1 as [|l r K KR IH]; intros st x base O I J LB; cbn [Pre_Model.run_lines]; [exists st, false, x; auto|].
  cbn [own_from] in O. apply andb_true_iff in O as [O O3]. apply andb_true_iff in O as [O1 O2].
  destruct (K O1 st x base I J LB) as (st' & s & x' & R & I' & J' & L').
  { intros CL. left. intros ->. rewrite CL in O2. discriminate. }
  rewrite R. destruct s; [exists st', true, x'; auto|]. apply (IH st' x' base); auto. rewrite L'. exact O3.
Qed.
Lemma live_mid : forall x f y base, live base -> x ++ f :: y = base -> skip f = true -> False.
Proof. intros x f y base LB <- K. apply live_app in LB. inversion LB; congruence. Qed.

Lemma keeps_all : forall l, keeps l.
Proof.
  induction l as [l NI|f F] using line_ind2; intros O st x base I J LB OK.
  - destruct (step_any l st x base NI I J LB OK) as (st' & s & x' & es & R & I' & J' & L' & _). exists st', s, x'; auto.
  - destruct I as [A|(up & g & low & H)].
    + pose proof A as (SS & L & FL). rewrite run_line_include by exact SS.
      assert (ME : may_enter st = true) by (unfold may_enter; rewrite L, (skipping_none _ FL); apply Nat.eqb_refl).
      rewrite ME. cbn [negb]. rewrite own_include in O.
      destruct (keeps_list f F st [] (ifs st) O (or_introl A) eq_refl FL) as (st' & s & x' & R & I' & J').
      rewrite R. unfold leave. rewrite J', skipn_app_exact, Nat.eqb_refl. cbn [negb]. rewrite (skipping_none _ FL).
      exists (set_ifs st' (ifs st) (length (ifs st)) false), false, x. split; [reflexivity|]. split; [apply inv_start; [reflexivity|reflexivity|exact FL]|]. split; [exact J|reflexivity].
    + pose proof H as (SS & _). rewrite run_line_pass by exact SS. cbn. exists st, false, x. split; [reflexivity|]. split; [right; exists up, g, low; exact H|]. auto.
Qed.

Lemma main_list : forall f, forallb own_sections f = true -> forall st, Inv st -> exists st' s, run_lines f st = Went st' s.
Proof.
  induction f as [|l r IH]; intros O st I; cbn [Pre_Model.run_lines]; [eauto|].
  cbn [forallb] in O. apply andb_true_iff in O as [O1 O2].
  destruct (keeps_all l O1 st (ifs st) [] I) as (st' & s & x' & R & I' & _); [rewrite app_nil_r; reflexivity|constructor| |].
  { intros _. destruct (ifs st); [right; reflexivity|left; discriminate]. }
  rewrite R. destruct s; eauto.
Qed.
Theorem sound_footing : forall f e, forallb own_sections f = true -> run_main f e <> Broken.
Proof.
  intros f e O. unfold Pre_Model.run_main.
  destruct (main_list f O (mkPst [] 0 false e [] [])) as (st & s & R); [left; split; [reflexivity|split; [reflexivity|constructor]]|].
  rewrite R. discriminate.
Qed.

(* ---- errors of nesting ---- *)

Lemma plain_run : forall f, Forall plain f -> forall st, Inv st ->
  exists st' es, run_lines f st = Went st' false /\ errs st' = errs st ++ es /\ ~ In EUnclosed es /\
    match depth f (length (ifs st)) with Some n => ~ In ENoIf es /\ length (ifs st') = n | None => In ENoIf es end.
Proof.
  induction 1 as [|l r P PR IH]; intros st I; cbn [Pre_Model.run_lines].
  - exists st, []. rewrite app_nil_r. cbn. intuition auto.
  - destruct (step_any l st (ifs st) []) as (st' & s & x' & es & R & I' & J' & L' & EE & N1 & N2 & ST); try assumption.
    { intros f ->. exact P. } { rewrite app_nil_r; reflexivity. } { constructor. }
    { intros _. destruct (ifs st); [right; reflexivity|left; discriminate]. }
    rewrite R. destruct s. { rewrite (ST eq_refl) in P. destruct P. }
    rewrite app_nil_r in J'. subst x'.
    destruct (IH st' I') as (st2 & es2 & R2 & E2 & U2 & D2). exists st2, (es ++ es2).
    split; [exact R2|]. split; [rewrite E2, EE, app_assoc; reflexivity|]. split; [rewrite in_app_iff; tauto|].
    cbn [depth]. rewrite <- L'. destruct (closer l && (length (ifs st) =? 0)%nat) eqn:Q.
    + apply andb_true_iff in Q as [Q1 Q2]. apply Nat.eqb_eq, length_zero_iff_nil in Q2. apply in_app_iff. left. apply N1. auto.
    + assert (NN : ~ In ENoIf es). { rewrite N1. intros [X1 X2]. rewrite X1, X2 in Q. discriminate. }
      destruct (depth r (length (ifs st'))); [|apply in_app_iff; auto].
      destruct D2 as [D2 D3]. split; [rewrite in_app_iff; tauto|exact D3].
Qed.
Theorem nesting_reported : forall f e, Forall plain f -> exists st s, run_main f e = Went st s /\
  (~ In ENoIf (errs st) /\ ~ In EUnclosed (errs st) <-> depth f 0 = Some O).
Proof.
  intros f e P. unfold Pre_Model.run_main.
  destruct (plain_run f P (mkPst [] 0 false e [] [])) as (st & es & R & EE & U & D); [left; split; [reflexivity|split; [reflexivity|constructor]]|].
  rewrite R. eexists _, _. split; [reflexivity|]. cbn [errs ifs length app] in EE, D. rewrite <- EE in *.
  destruct (ifs st) as [|g r] eqn:IF.
  - destruct (depth f 0) as [n|]; [destruct D as [D1 D2]; cbn in D2; subst n|]; split; try tauto; intros; discriminate.
  - cbn [note errs]. rewrite !in_app_iff. cbn. destruct (depth f 0) as [n|]; [destruct D as [D1 D2]; cbn in D2; subst n|]; split; try tauto; intros X; try discriminate; exfalso; tauto.
Qed.
End Nesting.
