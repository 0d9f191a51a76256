(* Proofs for C58. *)
From Coq Require Import ZifyBool Lia.
From Verif Require Import Base Gen_Model Gen_Spec Stm_Model Stm_Spec Stm_Flow Ret_Model Ret_Spec.
Ltac Zify.zify_post_hook ::= idtac.

Fixpoint mixes (v : bool) (l : list bool) : bool :=
  match l with [] => false | b :: r => (b && v) || mixes (v || negb b) r end.
Lemma mixes_app v a b : mixes v (a ++ b) = mixes v a || mixes (v || existsb negb a) b.
Proof.
  revert v. induction a as [|x a IH]; intros v; cbn [app mixes existsb]; [now rewrite orb_false_r|]. rewrite IH, !orb_assoc. reflexivity.
Qed.
Lemma mixes_true l : mixes true l = existsb (fun b => b) l.
Proof. induction l as [|b r IH]; [reflexivity|]. cbn [mixes existsb]. cbn [orb]. rewrite IH, andb_true_r. reflexivity. Qed.
Lemma mixes_spec l : mixes false l = true <-> void_then_value l.
Proof.
  induction l as [|b r IH].
  - split; [discriminate|]. intros (i & j & _ & N & _). now destruct i.
  - cbn [mixes]. rewrite andb_false_r. cbn [orb]. destruct b; cbn [negb].
    + rewrite IH. split; intros (i & j & L & A & B).
      * exists (S i), (S j). split; [lia|]. split; assumption.
      * destruct i as [|i]; [discriminate A|]. destruct j as [|j]; [lia|]. exists i, j. split; [lia|]. split; assumption.
    + rewrite mixes_true. split.
      * intros E. apply existsb_exists in E as (x & I & ->). apply In_nth_error in I as [j J]. exists 0%nat, (S j).
        split; [lia|]. split; [reflexivity|exact J].
      * intros (i & j & L & A & B). destruct j as [|j]; [lia|]. apply existsb_exists. exists true. split; [|reflexivity].
        apply nth_error_In with j. exact B.
Qed.

Section Check.
Variable d : fundecl.
Notation Check := (check d).
Lemma check_cons pre fl ok s rest r : check_l d pre fl ok (SCons s rest) r =
  let r0 := if ok && negb (warned_unreachable r) && flow_eqb fl FReturn
            then mkSema (void_return r) (warned_mixed r) (returns_value r) true (reports r ++ [Unreachable pre s rest]) else r in
  check_l d (snoc pre s) (match fl with FNone => flow_of s | _ => fl end) (ok && fst (Check s r0)) rest (snd (Check s r0)).
Proof. cbv zeta. change (check_l d pre fl ok (SCons s rest) r) with
  (let r0 := if ok && negb (warned_unreachable r) && flow_eqb fl FReturn
            then mkSema (void_return r) (warned_mixed r) (returns_value r) true (reports r ++ [Unreachable pre s rest]) else r in
   let (ok1, r1) := Check s r0 in check_l d (snoc pre s) (match fl with FNone => flow_of s | _ => fl end) (ok && ok1) rest r1).
  cbv zeta. now destruct (Check s _).
Qed.
Lemma check_else c a b r : Check (SIfElse c a b) r = if fst (Check a r) then Check b (snd (Check a r)) else (false, snd (Check a r)).
Proof. change (Check (SIfElse c a b) r) with (let (ok, r) := Check a r in if ok then Check b r else (false, r)). now destruct (Check a r). Qed.
Lemma check_case vs s rest r : check_c d (KCase vs s rest) r = check_c d rest (snd (Check s r)). Proof. reflexivity. Qed.

(* Functions with a value. *)
Record effect (l : list bool) (r r' : sema) : Prop := {
  e_void : void_return r' = void_return r || existsb negb l;
  e_value : returns_value r' = returns_value r || existsb (fun b => b) l;
  e_warned : warned_mixed r' = warned_mixed r || mixes (void_return r) l;
  e_mixed : In Mixed (reports r') <-> In Mixed (reports r) \/ (warned_mixed r = false /\ mixes (void_return r) l = true);
  e_none : In NoValue (reports r') <-> In NoValue (reports r) \/ (must_return d = true /\ In false l)
}.
Lemma effect_nil r : effect [] r r.
Proof. constructor; cbn; rewrite ?orb_false_r; try reflexivity; split; try tauto; intros [H|[_ H]]; (exact H || discriminate H || contradiction H). Qed.
Lemma effect_app l1 l2 r r1 r2 : effect l1 r r1 -> effect l2 r1 r2 -> effect (l1 ++ l2) r r2.
Proof.
  intros [A1 A2 A3 A4 A5] [B1 B2 B3 B4 B5]. constructor.
  - rewrite B1, A1, existsb_app, orb_assoc. reflexivity.
  - rewrite B2, A2, existsb_app, orb_assoc. reflexivity.
  - rewrite B3, A3, A1, mixes_app, orb_assoc. reflexivity.
  - rewrite B4, A4, A3, A1, mixes_app.
    destruct (warned_mixed r); destruct (mixes (void_return r) l1); cbn [orb]; intuition congruence.
  - rewrite B5, A5, in_app_iff. tauto.
Qed.
Lemma effect_warn (c : bool) p s q r : effect [] r
  (if c then mkSema (void_return r) (warned_mixed r) (returns_value r) true (reports r ++ [Unreachable p s q]) else r).
Proof.
  destruct c; [|apply effect_nil].
  constructor; cbn; rewrite ?orb_false_r; try reflexivity; rewrite in_app_iff; cbn; split; try tauto; intuition discriminate.
Qed.
Lemma effect_return e r : f_void d = false -> fst (check_return d e r) = true /\ effect (returns (SReturn e)) r (snd (check_return d e r)).
Proof.
  intros V. unfold check_return. destruct e as [e|].
  - rewrite V. cbn [fst snd]. split; [reflexivity|]. cbn [returns].
    destruct (void_return r) eqn:E1; destruct (warned_mixed r) eqn:E2; cbn [andb negb]; constructor;
    cbn [void_return warned_mixed returns_value reports existsb mixes negb]; rewrite ?E1, ?E2, ?orb_false_r, ?orb_true_r; cbn [andb orb negb];
    try reflexivity; rewrite ?in_app_iff; cbn; intuition congruence.
  - cbn [fst snd]. split; [reflexivity|]. cbn [returns].
    destruct (must_return d) eqn:M; constructor; cbn [say void_return warned_mixed returns_value reports existsb mixes negb];
    rewrite ?orb_false_r, ?orb_true_r; cbn [andb orb negb]; try reflexivity; rewrite ?in_app_iff; cbn; intuition congruence.
Qed.
Lemma effects : f_void d = false ->
  (forall s r, fst (Check s r) = true /\ effect (returns s) r (snd (Check s r))) /\
  (forall b pre fl ok r, fst (check_l d pre fl ok b r) = ok /\ effect (returns_l b) r (snd (check_l d pre fl ok b r))) /\
  (forall cs r, effect (returns_c cs) r (check_c d cs r)).
Proof.
  intros V. apply ssc_ind.
  - intros e r. split; [reflexivity|apply effect_nil].
  - intros sl i r. split; [reflexivity|apply effect_nil].
  - intros b IH r. apply IH.
  - intros c a IH r. apply IH.
  - intros c a IHa b IHb r. rewrite check_else. cbn [returns]. destruct (IHa r) as [A1 A2]. destruct (Check a r) as [o r1]. cbn [fst snd] in *. subst o.
    destruct (IHb r1) as [B1 B2]. split; [exact B1|]. eapply effect_app; eassumption.
  - intros c b IH r. apply IH.
  - intros b IH c r. apply IH.
  - intros i _ c a b IH r. apply IH.
  - intros e cs IH r. split; [reflexivity|apply IH].
  - intros r. split; [reflexivity|apply effect_nil].
  - intros r. split; [reflexivity|apply effect_nil].
  - intros e r. now apply effect_return.
  - intros pre fl ok r. split; [reflexivity|apply effect_nil].
  - intros s IHs rest IHr pre fl ok r. rewrite check_cons. cbn [returns_l]. cbv zeta.
    set (r0 := if ok && negb (warned_unreachable r) && flow_eqb fl FReturn then _ else r).
    destruct (IHs r0) as [A1 A2]. destruct (Check s r0) as [o r1]. cbn [fst snd] in *. subst o. rewrite andb_true_r.
    destruct (IHr (snoc pre s) (match fl with FNone => flow_of s | _ => fl end) ok r1) as [B1 B2]. split; [exact B1|].
    eapply (effect_app [] (returns s ++ returns_l rest)); [apply effect_warn|]. eapply effect_app; eassumption.
  - intros r. apply effect_nil.
  - intros s IH r. apply IH.
  - intros vs s IHs rest IHr r. rewrite ?check_case; cbn [returns_c]. eapply effect_app; [apply IHs|apply IHr].
Qed.

(* Void functions. *)
Definition adds (x : report) (r r' : sema) : Prop := In x (reports r) -> In x (reports r').
Lemma void_checked : f_void d = true ->
  (forall s r, adds VoidReturnsValue r (snd (Check s r)) /\ (fst (Check s r) = true \/ In VoidReturnsValue (reports (snd (Check s r)))) /\
     (In true (returns s) -> In VoidReturnsValue (reports (snd (Check s r))))) /\
  (forall b pre fl ok r, adds VoidReturnsValue r (snd (check_l d pre fl ok b r)) /\
     (fst (check_l d pre fl ok b r) = ok \/ In VoidReturnsValue (reports (snd (check_l d pre fl ok b r)))) /\
     (In true (returns_l b) -> In VoidReturnsValue (reports (snd (check_l d pre fl ok b r))))) /\
  (forall cs r, adds VoidReturnsValue r (check_c d cs r) /\ (In true (returns_c cs) -> In VoidReturnsValue (reports (check_c d cs r)))).
Proof.
  intros V. unfold adds. apply ssc_ind.
  - intros e r. cbn. tauto.
  - intros sl i r. cbn. tauto.
  - intros b IH r. apply (IH SNil FNone true r).
  - intros c a IH r. apply IH.
  - intros c a IHa b IHb r. rewrite check_else. cbn [returns]. destruct (IHa r) as (A1 & A2 & A3). destruct (Check a r) as [o r1]. cbn [fst snd] in *.
    rewrite in_app_iff. destruct o.
    + destruct (IHb r1) as (B1 & B2 & B3). tauto.
    + cbn [fst snd]. destruct A2 as [A2|A2]; [discriminate A2|]. tauto.
  - intros c b IH r. apply IH.
  - intros b IH c r. apply IH.
  - intros i _ c a b IH r. apply IH.
  - intros e cs IH r. cbn [check returns fst snd]. destruct (IH r). tauto.
  - intros r. cbn. tauto.
  - intros r. cbn. tauto.
  - intros e r. cbn [check returns]. unfold check_return. destruct e as [e|].
    + rewrite V. cbn [fst snd say reports]. rewrite !in_app_iff. cbn [In].
      destruct (void_return r && negb (warned_mixed r)); cbn [reports]; rewrite ?in_app_iff; tauto.
    + destruct (must_return d); cbn [fst snd say reports]; rewrite ?in_app_iff; cbn [In]; intuition congruence.
  - intros pre fl ok r. cbn. tauto.
  - intros s IHs rest IHr pre fl ok r. rewrite check_cons. cbn [returns_l]. cbv zeta.
    set (r0 := if ok && negb (warned_unreachable r) && flow_eqb fl FReturn then _ else r).
    assert (Z : In VoidReturnsValue (reports r) -> In VoidReturnsValue (reports r0)).
    { unfold r0. destruct (_ && _ && _); cbn [reports]; rewrite ?in_app_iff; tauto. }
    destruct (IHs r0) as (A1 & A2 & A3). destruct (Check s r0) as [o r1]. cbn [fst snd] in *.
    destruct (IHr (snoc pre s) (match fl with FNone => flow_of s | _ => fl end) (ok && o) r1) as (B1 & B2 & B3).
    rewrite in_app_iff. split; [tauto|]. split; [|tauto]. destruct A2 as [-> |A2]; [rewrite andb_true_r in *; tauto|tauto].
  - intros r. cbn. tauto.
  - intros s IH r. rewrite ?check_case; cbn [returns_c]. destruct (IH r). tauto.
  - intros vs s IHs rest IHr r. rewrite ?check_case; cbn [returns_c]. destruct (IHs r) as (A1 & A2 & A3). destruct (IHr (snd (Check s r))) as (B1 & B3).
    rewrite in_app_iff. tauto.
Qed.

(* Unreachable statements. *)
Lemma flow_snoc pre s : flow_l (snoc pre s) = match flow_l pre with FNone => flow_of s | fl => fl end.
Proof.
  induction pre as [|t r IH]; cbn [snoc flow_l]; [destruct (flow_of s); reflexivity|]. destruct (flow_of t); auto.
Qed.
Lemma joined_snoc pre s b : joined (snoc pre s) b = joined pre (SCons s b).
Proof. induction pre as [|t r IH]; cbn; [reflexivity|now rewrite IH]. Qed.
Lemma accepted_joined l a b : accepted_sl l (joined a b) <-> accepted_sl l a /\ accepted_sl l b.
Proof. induction a as [|t r IH]; cbn [joined accepted_sl]; [tauto|]. rewrite IH. tauto. Qed.
Definition found (has : stmts -> Prop) (pre : stmts) (s : stmt) (post : stmts) : Prop :=
  has (joined pre (SCons s post)) /\ flow_l pre = FReturn /\ exists l, accepted_sl l pre.
Lemma warned_at p t q :
  (forall s l r, accepted_s l s -> In (Unreachable p t q) (reports (snd (Check s r))) ->
     In (Unreachable p t q) (reports r) \/ found (fun b => has_block b s) p t q) /\
  (forall b l pre fl ok r, accepted_sl l (joined pre b) -> fl = flow_l pre ->
     In (Unreachable p t q) (reports (snd (check_l d pre fl ok b r))) ->
     In (Unreachable p t q) (reports r) \/ found (fun b' => b' = joined pre b \/ has_block_l b' b) p t q) /\
  (forall cs l r, accepted_sc l cs -> In (Unreachable p t q) (reports (check_c d cs r)) ->
     In (Unreachable p t q) (reports r) \/ found (fun b => has_block_c b cs) p t q).
Proof.
  apply ssc_ind; cbn [accepted_s accepted_sl accepted_sc has_block has_block_l has_block_c].
  - intros e l r _ H. now left.
  - intros sl i l r _ H. now left.
  - intros b IH l r A H. exact (IH l SNil FNone true r A eq_refl H).
  - intros c a IH l r [_ A] H. exact (IH l r A H).
  - intros c a IHa b IHb l r (_ & A & B) H. rewrite check_else in H. pose proof (IHa l r A) as IA. destruct (Check a r) as [o r1]. cbn [fst snd] in IA, H.
    destruct o.
    + destruct (IHb l r1 B H) as [X|(X & Y)].
      * destruct (IA X) as [Z|(Z & W)]; [now left|right]. split; [now left|exact W].
      * right. split; [now right|exact Y].
    + destruct (IA H) as [Z|(Z & W)]; [now left|right]. split; [now left|exact W].
  - intros c b IH l r [_ A] H. exact (IH true r A H).
  - intros b IH c l r [_ A] H. exact (IH true r A H).
  - intros i _ c a b IH l r (_ & _ & _ & _ & A) H. exact (IH true r A H).
  - intros e cs IH l r (_ & A & _) H. exact (IH l r A H).
  - intros l r _ H. now left.
  - intros l r _ H. now left.
  - intros e l r _ H. left. cbn [check] in H. unfold check_return in H. destruct e as [e|].
    + destruct (f_void d); destruct (void_return r && negb (warned_mixed r)); cbn [fst snd say reports] in H;
      rewrite ?in_app_iff in H; cbn [In] in H; intuition discriminate.
    + destruct (must_return d); cbn [fst snd say reports] in H; rewrite ?in_app_iff in H; cbn [In] in H; intuition discriminate.
  - intros l pre fl ok r _ _ H. now left.
  - intros s IHs rest IHr l pre fl ok r A F H. rewrite check_cons in H. cbv zeta in H.
    set (r0 := if ok && negb (warned_unreachable r) && flow_eqb fl FReturn then _ else r) in H.
    assert (A' := A). apply accepted_joined in A' as (A1 & A2 & A3).
    assert (Z : In (Unreachable p t q) (reports r0) ->
      In (Unreachable p t q) (reports r) \/ found (fun b' => b' = joined pre (SCons s rest) \/ has_block b' s \/ has_block_l b' rest) p t q).
    { unfold r0. destruct (ok && negb (warned_unreachable r) && flow_eqb fl FReturn) eqn:E; [|now left]. cbn [reports]. rewrite in_app_iff. cbn [In].
      intros [X|[X|[]]]; [now left|right]. injection X as <- <- <-. apply andb_prop in E as [_ E]. apply flow_eqb_eq in E.
      split; [now left|]. split; [congruence|eauto]. }
    pose proof (IHs l r0 A2) as IA. destruct (Check s r0) as [o r1]. cbn [fst snd] in IA, H.
    destruct (IHr l (snoc pre s) (match fl with FNone => flow_of s | _ => fl end) (ok && o) r1) as [X|(X & Y)].
    + now rewrite joined_snoc.
    + rewrite flow_snoc, F. now destruct (flow_l pre).
    + exact H.
    + destruct (IA X) as [W|(W & W')]; [exact (Z W)|]. right. split; [cbv beta in *; tauto|exact W'].
    + right. rewrite joined_snoc in X. split; [cbv beta in *; tauto|exact Y].
  - intros l r _ H. now left.
  - intros s IH l r A H. exact (IH l r A H).
  - intros vs s IHs rest IHr l r (A & B) H. rewrite check_case in H. destruct (IHr l _ B H) as [X|(X & Y)].
    + destruct (IHs l r A X) as [W|(W & W')]; [now left|right]. split; [now left|exact W'].
    + right. split; [now right|exact Y].
Qed.
End Check.

Lemma joined_stops sc f l pre b : accepted_sl l pre -> flow_l pre <> FNone -> forall st,
  execs_l sc f (joined pre b) st = execs_l sc f pre st /\ (forall st', execs_l sc f pre st <> Fin Normal st').
Proof.
  intros A N st. assert (X : forall st', execs_l sc f pre st <> Fin Normal st').
  { intros st' E. destruct (proj1 (proj2 (flows sc f)) pre l A st Normal st' E) as (U & _). now apply U. }
  split; [|exact X]. clear A N. revert st X. induction pre as [|s r IH]; intros st X.
  - exfalso. exact (X st eq_refl).
  - cbn [joined].
    assert (E : forall b', execs_l sc f (SCons s b') st = sthen (execs sc f s st) (fun o st => match o with Normal => execs_l sc f b' st | _ => Fin o st end)) by reflexivity.
    rewrite !E. setoid_rewrite E in X. clear E. destruct (execs sc f s st) as [o st1|?| |]; cbn [sthen] in *; try reflexivity.
    destruct o; try reflexivity. apply IH. exact X.
Qed.

Lemma function_reports d body x : In x (check_function d body) <->
  In x (reports (snd (check d body sema0))) \/
  (x = NoValue /\ must_return d = true /\ (returns_value (snd (check d body sema0)) && flow_eqb (flow_of body) FReturn) = false).
Proof.
  unfold check_function. destruct (_ && _); [intuition discriminate|]. destruct (must_return d); cbn [say reports].
  - rewrite in_app_iff. cbn. intuition.
  - intuition discriminate.
Qed.
Lemma value_returned d body : accepted_s false body -> must_return d = true -> ~ In NoValue (check_function d body) ->
  ~ In false (returns body) /\
  forall sc f st o st', execs sc f body st = Fin o st' -> exists v, o = Ret v.
Proof.
  intros A M N. rewrite function_reports in N.
  assert (V : f_void d = false) by (unfold must_return in M; destruct (f_void d); [rewrite andb_false_r in M; discriminate|reflexivity]).
  destruct (proj1 (effects d V) body sema0) as [_ [_ _ _ _ E]]. split.
  - intros I. apply N. left. apply E. right. auto.
  - intros sc f st o st' X. destruct (flows_s sc f body false st o st' A X) as (F1 & F2 & F3). destruct (proj1 no_loop body A) as [B1 B2].
    assert (R : flow_of body <> FNone).
    { intros R. apply N. right. rewrite R. cbn. rewrite andb_false_r. auto. }
    destruct o as [| | |v]; [now destruct (F1 R)|now destruct (F2 B1)|now destruct (F3 B2)|eauto].
Qed.
Lemma declared_returned d body : accepted_s false body -> f_new d = true -> f_void d = false -> f_forward d = false ->
  ~ In NoValue (check_function d body) ->
  ~ In false (returns body) /\ forall sc f st o st', execs sc f body st = Fin o st' -> exists v, o = Ret v.
Proof. intros A N V F. apply value_returned; [exact A|]. unfold must_return. now rewrite N, V, F. Qed.
Lemma void_returned d body : f_void d = true -> ~ In VoidReturnsValue (check_function d body) -> ~ In true (returns body).
Proof.
  intros V N I. apply N. apply function_reports. left. now apply (proj1 (void_checked d V) body sema0).
Qed.
Lemma mixed_reported d body : f_void d = false -> In Mixed (check_function d body) <-> void_then_value (returns body).
Proof.
  intros V. rewrite function_reports. destruct (proj1 (effects d V) body sema0) as [_ [_ _ _ E _]]. rewrite E, <- mixes_spec. cbn.
  intuition discriminate.
Qed.
Lemma unreachable_is d body pre s post : accepted_s false body -> In (Unreachable pre s post) (check_function d body) ->
  has_block (joined pre (SCons s post)) body /\
  forall sc f st, execs_l sc f (joined pre (SCons s post)) st = execs_l sc f pre st /\ (forall st', execs_l sc f pre st <> Fin Normal st').
Proof.
  intros A I. apply function_reports in I as [I|[I _]]; [|discriminate I].
  destruct (proj1 (warned_at d pre s post) body false sema0 A I) as [[]|(H & F & l & L)]. split; [exact H|].
  intros sc f st. apply (joined_stops sc f l); [exact L|]. rewrite F. discriminate.
Qed.
