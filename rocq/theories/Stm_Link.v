(* From statement code in memory to whole functions, and the labels statements use. *)
From Verif Require Import Base Base_Proofs Rt_Model Rt_Spec Interp_Model Fold_Model Gen_Model Gen_Spec Gen_Steps Gen_Proofs Gen_Link Stm_Model Stm_Spec Stm_Flow Stm_Proofs.
From Verif Require Label_Model Label_Spec Label_Proofs.
From Coq Require Import ZifyBool Lia.
Ltac Zify.zify_post_hook ::= idtac.
Notation items := Label_Spec.items.
Notation placed := Label_Spec.placed.
Notation well_used := Label_Spec.well_used.

(* ---- Labels ---- *)
Section Labels.
Variable glab : nat -> nat.
Variable ga : nat -> Z.
Notation Gen := (gen glab ga).
Notation tidy := (tidy glab).
Definition leaves (brk cont : bool) (bt ct : nat) (l : nat) : Prop := (brk = true /\ l = bt) \/ (cont = true /\ l = ct).

Lemma tidy_entries (t : list (Z * nat)) (R T : nat -> Prop) : Forall (fun c => T (snd c)) t ->
  tidy (map (fun c => CaseEntry (fst c) (snd c)) t) R T.
Proof.
  induction t as [|c t IH]; intros Fa; [apply tidy_nil|]. inversion Fa as [|? ? Tc Ft]; subst. specialize (IH Ft).
  destruct IH as (A & B & C & P). cbn [map]. split; [exact A|]. split; [exact B|]. split.
  - intros l I. unfold refs in I. cbn [Label_Spec.items flat_map Label_Spec.items_of app] in I. destruct I as [<-|I]; [auto|]. exact (C l I).
  - intros o [<-|I]; [exact Logic.I|auto].
Qed.
Lemma tidy_table op x l (R T : nat -> Prop) : T l -> tidy [CaseTable op x l] R T.
Proof.
  intros H. split; [intros y []|]. split; [constructor|]. split; [|intros o [<-|[]]; exact Logic.I].
  intros y. cbn. intros [<-|[]]. auto.
Qed.
Lemma table_labels bt ct x d cs : forall n lb t, Forall (fun c => In (snd c) (binds (gc glab ga bt ct x d cs n lb)) \/ In c t) (case_table cs n t).
Proof.
  assert (AT : forall vs n (t : list (Z * nat)), Forall (fun c => snd c = n \/ In c t) (fold_left (fun t v => emplace v n t) vs t)).
  { intros vs n t. apply forall_fold; [apply Forall_forall; intros v _; now left|]. apply Forall_forall. intros c I. now right. }
  induction cs as [|s|vs s r IH]; intros n lb t; cbn [case_table].
  - apply Forall_forall. intros c I. now right.
  - apply Forall_forall. intros c I. now right.
  - rewrite gc_case, !binds_app. specialize (IH (n + 1 + ns s)%nat (if is_none (flow_of s) then false else ends_in_break s) (fold_left (fun t v => emplace v n t) vs t)).
    eapply Forall_impl; [|exact IH]. intros c [I|I].
    + left. rewrite !in_app_iff. auto.
    + pose proof (AT vs n t) as Fa. rewrite Forall_forall in Fa. destruct (Fa c I) as [->|J]; [|now right].
      left. apply in_or_app. left. now left.
Qed.
Lemma default_label bt ct x d cs : forall n lb, has_default cs = true -> In d (binds (gc glab ga bt ct x d cs n lb)).
Proof.
  induction cs as [|s|vs s r IH]; intros n lb; cbn [has_default]; try discriminate.
  - intros _. rewrite gc_default, binds_app. apply in_or_app. left. now left.
  - intros H. rewrite gc_case, !binds_app, !in_app_iff. auto.
Qed.
Lemma tidy_test n c n1 (T : nat -> Prop) : T n -> tidy (test_code glab ga n c n1) (rng n1 (n1 + nlo c)) T.
Proof.
  intros Tn. destruct c as [e|]; cbn [test_code nlo]; [|apply tidy_nil]. destruct (always_taken _); [apply tidy_nil|].
  eapply tidy_at; [apply (proj1 (gen_tidy glab ga) e (Test false n) n1)|]. unfold targets. intros l ->. exact Tn.
Qed.
Lemma tidy_decl slot i n (T : nat -> Prop) : tidy (decl_code glab ga slot i n) (rng n (n + nlo i)) T.
Proof.
  destruct i as [e|]; cbn [decl_code nlo]; [|apply tidy_emit]. destruct (konst e); [apply tidy_emit|].
  apply (tidy_none_r glab ga); [|apply tidy_emit]. eapply tidy_at; [apply (proj1 (gen_tidy glab ga) e Value n)|]. intros l [].
Qed.
Lemma tidy_pre lb g (R T : nat -> Prop) : tidy g R T -> tidy (pre lb ++ g) R T.
Proof. intros H. apply (tidy_none_l glab ga); [|exact H]. destruct lb; [apply tidy_nil|apply tidy_emit]. Qed.

Ltac tsolve := unfold targets, none, leaves; cbv beta; intros; try contradiction; rewrite ?orb_true_iff; intuition (subst; auto; try congruence).
Ltac lf :=
  match goal with
  | |- Gen_Link.tidy _ [] _ _ => apply (tidy_nil glab none)
  | |- Gen_Link.tidy _ [Emit _] _ _ => apply (tidy_emit glab _ none)
  | |- Gen_Link.tidy _ [JUMP_TO _] _ _ => apply (tidy_label glab _ _ none); right; tsolve
  | |- Gen_Link.tidy _ [EmitLabel _ _] _ _ => apply (tidy_label glab _ _ none); right; tsolve
  | |- Gen_Link.tidy _ [Bind ?l] _ _ => apply (tidy_bind glab l (eq l)); reflexivity
  | |- Gen_Link.tidy _ (test_code _ _ _ _ _) _ _ => apply tidy_test; tsolve
  | |- Gen_Link.tidy _ (gen _ _ ?md ?e ?n) _ _ => eapply tidy_at; [apply (proj1 (gen_tidy glab ga) e md n)|tsolve]
  | H : forall l, accepted_s l ?s -> _, A : accepted_s ?l ?s |- Gen_Link.tidy _ (gs _ _ _ _ ?s _ _) _ _ => eapply tidy_at; [apply (H l A)|tsolve]
  | H : forall l, accepted_sl l ?s -> _, A : accepted_sl ?l ?s |- Gen_Link.tidy _ (gl _ _ _ _ ?s _ _) _ _ => eapply tidy_at; [apply (H l A)|tsolve]
  | H : forall l, accepted_sc l ?s -> _, A : accepted_sc ?l ?s |- Gen_Link.tidy _ (gc _ _ _ _ _ _ ?s _ _) _ _ => eapply tidy_at; [apply (H l A)|tsolve]
  end.
Ltac dj := unfold rng, none; cbv beta; cbn [ns nsl nsc nlo]; intros; repeat match goal with H : _ \/ _ |- _ => destruct H end; subst; try contradiction; try lia.
Ltac tdd := match goal with |- Gen_Link.tidy _ (_ ++ _) _ _ => eapply tidy_or; [tdd|tdd|dj] | _ => lf end.
Ltac tp X := eapply tidy_mono with (T := X); [tdd|dj|].
Ltac inbs := rewrite ?binds_app, ?in_app_iff; unfold binds; cbn [flat_map binds_of app In]; tauto.

Lemma stm_tidy :
  (forall s l, accepted_s l s -> forall bt ct n lb, tidy (gs glab ga bt ct s n lb) (rng n (n + ns s)) (leaves (has_break s) (continues s) bt ct)) /\
  (forall b l, accepted_sl l b -> forall bt ct n lb, tidy (gl glab ga bt ct b n lb) (rng n (n + nsl b)) (leaves (has_break_l b) (continues_l b) bt ct)) /\
  (forall cs l, accepted_sc l cs -> forall bt ct x d n lb, (x < n)%nat -> (d < n)%nat ->
     tidy (gc glab ga bt ct x d cs n lb) (fun k => rng n (n + nsc cs) k \/ k = d) (fun k => leaves (has_break_c cs) (continues_c cs) bt ct k \/ k = x)).
Proof.
  apply ssc_ind; cbn [accepted_s accepted_sl accepted_sc].
  - intros e l A bt ct n lb. rewrite gs_pre. apply tidy_pre. change (gs glab ga bt ct (SExpr e) n true) with (Gen Value e n).
    eapply tidy_at; [apply (proj1 (gen_tidy glab ga) e Value n)|]. intros k [].
  - intros slot i l [I A] bt ct n lb. rewrite gs_pre. apply tidy_pre. apply (tidy_decl slot i n).
  - intros b IH l A bt ct n lb. rewrite gs_pre. apply tidy_pre. exact (IH l A bt ct n true).
  - intros c a IH l (A & B) bt ct n lb. rewrite gs_pre. apply tidy_pre.
    change (gs glab ga bt ct (SIf c a) n true) with (Gen (Test false n) c (n + 1) ++ gs glab ga bt ct a (n + 1 + nl c) false ++ [Bind n]).
    tp (fun k => leaves (has_break a) (continues a) bt ct k \/ k = n). intros k [K|K]; [now left|]. right. subst. inbs.
  - intros c a IHa b IHb l (A & B & C) bt ct n lb. rewrite gs_pre. apply tidy_pre.
    change (gs glab ga bt ct (SIfElse c a b) n true) with (Gen (Test false n) c (n + 2) ++ gs glab ga bt ct a (n + 2 + nl c) false ++
      (if is_none (flow_of a) then [JUMP_TO (n + 1)] else []) ++ [Bind n] ++
      gs glab ga bt ct b (n + 2 + nl c + ns a) (if is_none (flow_of a) then false else ends_in_break a) ++ (if is_none (flow_of a) then [Bind (n + 1)] else [])).
    cbn [has_break continues]. destruct (is_none (flow_of a)).
    + tp (fun k => leaves (has_break a || has_break b) (continues a || continues b) bt ct k \/ k = n \/ k = n + 1)%nat.
      intros k [K|[K|K]]; [now left|right; subst; inbs|right; subst; inbs].
    + tp (fun k => leaves (has_break a || has_break b) (continues a || continues b) bt ct k \/ k = n)%nat.
      intros k [K|K]; [now left|right; subst; inbs].
  - intros c b IH l (A & B) bt ct n lb. rewrite gs_pre. apply tidy_pre.
    change (gs glab ga bt ct (SWhile c b) n true) with ([Bind (n + 1)] ++ Gen (Test false n) c (n + 2) ++ gs glab ga n (n + 1) b (n + 2 + nl c) false ++
      (if is_none (flow_of b) then [JUMP_TO (n + 1)] else []) ++ [Bind n]).
    destruct (is_none (flow_of b)); tp (fun k => k = n \/ k = n + 1)%nat; intros k [-> | ->]; right; inbs.
  - intros b IH c l (A & B) bt ct n lb. rewrite gs_pre. apply tidy_pre.
    change (gs glab ga bt ct (SDo b c) n true) with ([Bind (n + 2)] ++ gs glab ga n (n + 1) b (n + 3) true ++
      (if do_tests b then [Bind (n + 1)] ++ Gen (Test true (n + 2)) c (n + 3 + ns b) else []) ++ [Bind n]).
    destruct (do_tests b) eqn:Dt.
    + tp (fun k => k = n \/ k = n + 1 \/ k = n + 2)%nat; intros k [-> |[-> | ->]]; right; inbs.
    + assert (continues b = false) as Cb by (unfold do_tests in Dt; apply orb_false_iff in Dt; tauto).
      tp (fun k => k = n)%nat. intros k ->; right; inbs.
  - intros i IHi c a b IHb l (A1 & A2 & A3 & A4 & A5) bt ct n lb. rewrite gs_pre. apply tidy_pre.
    destruct (proj1 (proj2 no_loop) i A1) as [Bi Ci].
    assert (CC : for_continues c b = false -> continues b = false).
    { intros H. destruct (continues b) eqn:Cb; [|reflexivity]. unfold for_continues in H. rewrite (proj1 continues_has b Cb) in H. discriminate. }
    destruct (never_taken c) eqn:Nv; [|destruct a as [e|]].
    + rewrite gs_never by exact Nv. tp none. intros k [].
    + rewrite gs_for_adv by exact Nv. destruct (for_continues c b) eqn:Fc.
      * assert (for_exits c b = false) as -> by (unfold for_exits; rewrite Fc; apply andb_false_r).
        tp (fun k => k = n \/ k = n + 1 \/ k = n + 2)%nat; intros k [-> |[-> | ->]]; right; inbs.
      * specialize (CC eq_refl). destruct (for_exits c b); tp (fun k => k = n \/ k = n + 2)%nat; intros k [-> | ->]; right; inbs.
    + rewrite gs_for_plain by exact Nv. destruct (for_exits c b); tp (fun k => k = n \/ k = n + 1)%nat; intros k [-> | ->]; right; inbs.
  - intros e cs IH l (A & B & C & D) bt ct n lb. rewrite gs_pre. apply tidy_pre.
    set (t := case_table cs (n + 3 + nl e) []).
    change (gs glab ga bt ct (SSwitch e cs) n true) with (Gen Value e (n + 3) ++ [EmitLabel 129 (n + 1)] ++
      gc glab ga bt ct n (n + 2) cs (n + 3 + nl e) false ++
      [Bind (n + 1)] ++ [CaseTable 130 (Z.of_nat (length t)) (if has_default cs then n + 2 else n)] ++
      map (fun c => CaseEntry (fst c) (snd c)) t ++ [Bind n]).
    pose proof (table_labels bt ct n (n + 2) cs (n + 3 + nl e) false []) as TL. fold t in TL.
    pose proof (default_label bt ct n (n + 2) cs (n + 3 + nl e) false) as DL.
    set (G := gc glab ga bt ct n (n + 2) cs (n + 3 + nl e) false) in *.
    assert (TG : tidy G (fun k => rng (n + 3 + nl e) (n + 3 + nl e + nsc cs) k \/ k = n + 2)%nat (fun k => leaves (has_break_c cs) (continues_c cs) bt ct k \/ k = n)).
    { apply (IH l B); lia. }
    eapply tidy_mono with (T := fun k => (leaves (has_break_c cs) (continues_c cs) bt ct k \/ k = n \/ k = n + 1 \/ In k (binds G))%nat).
    + eapply tidy_or; [lf| |shelve]. eapply tidy_or; [lf| |shelve]. eapply tidy_or; [eapply tidy_at; [exact TG|intros k [K|K]; auto]| |shelve].
      eapply tidy_or; [lf| |shelve]. eapply tidy_or; [apply (tidy_table _ _ _ none)| |shelve].
      * destruct (has_default cs); auto.
      * eapply tidy_or; [apply (tidy_entries _ none)|lf|shelve].
        eapply Forall_impl; [|exact TL]. intros c0 [I|[]]. auto.
    + dj.
    + intros k [K|[-> |[-> |K]]]; [now left|right|right|right]; [inbs|inbs|]. rewrite !binds_app, !in_app_iff. tauto.
    Unshelve. all: dj.
  - intros l A bt ct n lb. rewrite gs_pre. apply tidy_pre. apply (tidy_label glab). right. left. auto.
  - intros l A bt ct n lb. rewrite gs_pre. apply tidy_pre. apply (tidy_label glab). right. right. auto.
  - intros e l A bt ct n lb. rewrite gs_pre. apply tidy_pre.
    change (gs glab ga bt ct (SReturn e) n true) with ((match e with Some e => Gen Value e n | None => [Emit (const_pri 0)] end) ++ [Emit [48]]).
    destruct e as [e|]; tp none; intros k [].   
  - intros l A bt ct n lb. apply tidy_nil.
  - intros s IHs r IHr l (A & B) bt ct n lb.
    change (gl glab ga bt ct (SCons s r) n lb) with (gs glab ga bt ct s n lb ++ gl glab ga bt ct r (n + ns s) (ends_in_break s)).
    cbn [has_break_l continues_l]. tp (leaves (has_break s || has_break_l r) (continues s || continues_l r) bt ct). auto.
  - intros l A bt ct x d n lb X D. apply tidy_nil.
  - intros s IH l A bt ct x d n lb X D. rewrite gc_default. cbn [has_break_c continues_c].
    destruct (is_none (flow_of s)); tp (fun k => leaves (has_break s) (continues s) bt ct k \/ k = x); auto.
  - intros vs s IHs r IHr l (A & B) bt ct x d n lb X D. rewrite gc_case. cbn [has_break_c continues_c].
    set (lb' := if is_none (flow_of s) then false else ends_in_break s).
    pose proof (IHr l B bt ct x d (n + 1 + ns s)%nat lb' ltac:(lia) ltac:(lia)) as TR.
    set (G := gc glab ga bt ct x d r (n + 1 + ns s) lb') in *.
    eapply tidy_mono with (T := fun k => (leaves (has_break s || has_break_c r) (continues s || continues_c r) bt ct k \/ k = x)).
    + eapply tidy_or; [lf| |shelve]. eapply tidy_or; [lf| |shelve]. eapply tidy_or; [|eapply tidy_at; [exact TR|tsolve]|shelve].
      instantiate (1 := none). destruct (is_none (flow_of s)); lf.
    + dj.
    + auto.
    Unshelve. all: dj.
Qed.
End Labels.

(* ---- A function ---- *)
Lemma flow_eqb_neq a b : flow_eqb a b = true -> a = b. Proof. destruct a, b; discriminate || reflexivity. Qed.
Lemma function_correct M sc obase glab ga h before after body n F st m q p a : built h M -> h = before ++ gfun glab ga body n ++ after ->
  placed_data M sc obase (resolve h) glab ga -> (forall c, m_tmo M c = false) -> accepted_s false body -> holds M sc obase st m ->
  hp (m_rt M) + 4 * sdepth body < q <= sp (m_rt M) ->
  behaves M sc obase F m (at_ M m q (cells_of before + 1) p a) q (execs_body sc F body st) (returning M q).
Proof.
  intros B E PD TMO A H Q. destruct (built_laid h M _ _ _ B E) as (L & K & Sz & N & Sm). rewrite <- Sz in N.
  assert (0 <= cells_of after) by (unfold cells_of; lia). unfold gfun in L, N.
  set (S := gs glab ga 0 0 body n true) in *. set (X := if flow_eqb (flow_of body) FReturn then _ else _) in *.
  assert (LX : forall k, laid (p_code (m_prog M)) (resolve h) k ([Emit [46]; BREAK_OP] ++ S ++ X ++ [Emit [166]]) ->
     laid (p_code (m_prog M)) (resolve h) (k + 1) [BREAK_OP] /\ laid (p_code (m_prog M)) (resolve h) (k + 2) S /\
     laid (p_code (m_prog M)) (resolve h) (k + 2 + size S) X).
  { intros k. rewrite !(Gen_Steps.laid_app M). intros (L1 & L2 & L3 & _). change (size [Emit [46]; BREAK_OP]) with 2 in *.
    split; [|auto]. cbn [laid] in L1. change (k + Z.of_nat (length [46])) with (k + 1) in L1. tauto. }
  apply LX in L as (L1 & L2 & L3). clear LX. set (k := cells_of before) in *. pose proof (size_nonneg S). pose proof (size_nonneg X).
  rewrite !size_app in N. change (size [Emit [46]; BREAK_OP]) with 2 in N. change (size [Emit [166]]) with 1 in N.
  assert (C1 : cell_at (p_code (m_prog M)) (k + 1) = 137) by (unfold BREAK_OP in L1; apply (Gen_Steps.laid1 M) in L1 as [C1 _]; [exact C1|now apply op_i32]).
  pose proof (go_brk M m q (k + 1) p a ltac:(lia) ltac:(lia) C1) as G.
  replace (k + 1 + 1) with (k + 2) in G by lia.
  eapply (s_go M sc obase F m); [exact G|apply only_refl|].
  destruct (proj1 no_loop body A) as [HB HC].
  pose proof (proj1 (stm_correct M sc obase (resolve h) glab ga PD TMO Sm F) body false A 0%nat 0%nat n true) as R.
  specialize (R ltac:(rewrite HB; discriminate) ltac:(rewrite HC; discriminate) (k + 2) m q p a st L2 ltac:(lia) ltac:(fold S; lia) H Q). fold S in R.
  unfold execs_body. eapply (s_then M sc obase F m); [exact R|]. intros o st1 m1 c1 Er G1 En Hh. destruct (flows_s sc F body false st o st1 A Er) as (U & V & W).
  destruct o as [| | |v]; [|exfalso; now apply V|exfalso; now apply W|].
  - destruct (flow_eqb (flow_of body) FReturn) eqn:Fl.
    { exfalso. apply flow_eqb_neq in Fl. apply U; [rewrite Fl; discriminate|reflexivity]. }
    subst X. destruct En as (p1 & a1 & ->). change (size [Emit (const_pri 0); Emit [48]]) with 2 in *.
    change [Emit (const_pri 0); Emit [48]] with ([Emit (const_pri 0)] ++ [Emit [48]]) in L3. rewrite (Gen_Steps.laid_app M) in L3. destruct L3 as [L3 L4].
    change (size [Emit (const_pri 0)]) with 1 in *. apply (Gen_Steps.laid1 M) in L4 as [C4 _]; [|now apply op_i32].
    pose proof (go_zero_pri M (resolve h) m1 q (k + 2 + size S) p1 a1 L3 ltac:(lia) ltac:(lia)) as G3.
    eapply (s_go M sc obase F m1); [exact G3|apply only_refl|]. apply s_fin; [|exact Hh].
    exists 0, (k + 2 + size S + 1), a1. split; [reflexivity|]. split; [reflexivity|]. split; [now apply op_i32|]. split; [lia|exact C4].
  - apply s_fin; [|exact Hh]. exact En.
Qed.

(* The labels of a function: those from [n] on, each placed once; it refers to no others but globals'. *)
Lemma function_labels glab ga body n before : well_used before -> accepted_s false body ->
  (forall l, (n <= l < n + ns body)%nat -> placed 0 before l = None) ->
  4 * cells_of (before ++ gfun glab ga body n) <= Label_Model.INT_MAX / 2 ->
  well_used (before ++ gfun glab ga body n) /\
  (forall l, In (Label_Spec.Ref l) (items (gfun glab ga body n)) ->
     (exists g, l = glab g) \/ placed 0 (gfun glab ga body n) l <> None) /\
  (forall l, placed 0 (gfun glab ga body n) l <> None -> (n <= l < n + ns body)%nat).
Proof.
  intros W A F Sm. destruct (proj1 no_loop body A) as [HB HC].
  assert (T : tidy glab (gfun glab ga body n) (rng n (n + ns body)) none).
  { pose proof (proj1 (stm_tidy glab ga) body false A 0%nat 0%nat n true) as T. rewrite HB, HC in T. unfold gfun.
    apply (tidy_none_l glab ga [Emit [46]; BREAK_OP]).
    { apply (tidy_none_l glab ga [Emit [46]] [BREAK_OP]); apply tidy_emit. }
    apply (tidy_none_r glab ga).
    - eapply tidy_at; [exact T|]. unfold leaves. intros l [[X _]|[X _]]; discriminate X.
    - apply (tidy_none_r glab ga); [|apply tidy_emit]. destruct (flow_eqb (flow_of body) FReturn); [apply tidy_nil|].
      apply (tidy_none_l glab ga [Emit (const_pri 0)] [Emit [48]]); apply tidy_emit. }
  destruct T as (A1 & B1 & C1 & P1). unfold rng in A1. split; [|split].
  - apply well_used_app; auto.
  - intros l I. rewrite (placed_binds l _ 0). destruct (C1 l) as [X|[X|[]]]; auto. now apply in_refs.
  - intros l I. apply A1. now rewrite (placed_binds l _ 0) in I.
Qed.
Lemma function_diverges M sc obase glab ga h before after body n st m q p a : built h M -> h = before ++ gfun glab ga body n ++ after ->
  placed_data M sc obase (resolve h) glab ga -> (forall c, m_tmo M c = false) -> accepted_s false body -> holds M sc obase st m ->
  hp (m_rt M) + 4 * sdepth body < q <= sp (m_rt M) -> (forall F, execs_body sc F body st = SFuel) ->
  forall k, exists c', vrun M k (at_ M m q (cells_of before + 1) p a) = inr c'.
Proof.
  intros B E PD TMO A H Q D k. pose proof (function_correct M sc obase glab ga h before after body n k st m q p a B E PD TMO A H Q) as X.
  rewrite D in X. exact X.
Qed.
