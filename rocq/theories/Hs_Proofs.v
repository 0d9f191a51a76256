(* Proofs about heap scopes, C45. *)
From Coq Require Import ZifyBool Lia.
From Verif Require Import Base Rt_Model Rt_Spec Hs_Model Hs_Spec.
Ltac Zify.zify_post_hook ::= idtac.

(* ---- The heap top and the open scopes along events ---- *)
Definition track1 (o : op) (p : Z * list Z) : Z * list Z :=
  let '(h, stk) := p in
  match o with
  | OHeap n => (h + n, stk)
  | OScopeIn => (h + 4, h :: stk)
  | OScopeOut => match stk with [] => (h, []) | x :: r => (x, r) end
  | _ => (h, stk)
  end.
Fixpoint track (e : list op) (p : Z * list Z) : Z * list Z :=
  match e with [] => p | o :: e' => track e' (track1 o p) end.
Definition fine1 (B : Z) (o : op) (p : Z * list Z) : Prop :=
  fst (track1 o p) <= B /\ match o with OHeap n => 0 < n | OScopeIn => True | OScopeOut => snd p <> [] | _ => False end.
Fixpoint fine (B : Z) (e : list op) (p : Z * list Z) : Prop :=
  match e with [] => True | o :: e' => fine1 B o p /\ fine B e' (track1 o p) end.
Lemma track_app e e' p : track (e ++ e') p = track e' (track e p).
Proof. revert p; induction e as [|o e IH]; intros p; cbn [app track]; [reflexivity|apply IH]. Qed.
Lemma fine_app B e e' p : fine B (e ++ e') p <-> fine B e p /\ fine B e' (track e p).
Proof. revert p; induction e as [|o e IH]; intros p; cbn [app fine track]; [tauto|]. rewrite IH. tauto. Qed.
Lemma fine_mono B B' e p : B <= B' -> fine B e p -> fine B' e p.
Proof.
  intros L; revert p; induction e as [|o e IH]; intros p H; [exact H|]. cbn [fine] in *. destruct H as [[H1 H2] H3].
  split; [split; [lia|exact H2]|apply IH; exact H3].
Qed.

(* ---- Sizes ---- *)
Lemma bytes_nonneg k : 0 <= bytes k. Proof. unfold bytes; lia. Qed.
Fixpoint size (s : stmt) : nat :=
  S match s with
    | Block l | Switch _ l _ => fold_right (fun s n => size s + n)%nat O l
    | If _ t => size t | IfElse _ t e => (size t + size e)%nat
    | While _ b | Do b _ | For _ _ _ b => size b
    | _ => O end.
Definition needB (s : stmt) : Z := need s - 4.
Lemma need_pos : forall n s, (size s <= n)%nat -> 4 <= need s.
Proof.
  induction n as [|n IH]; intros s L; [destruct s; cbn [size] in L; lia|].
  assert (SL : forall l, (fold_right (fun s n => size s + n)%nat O l <= n)%nat -> 0 <= sum (map need l)).
  { induction l as [|a l IHl]; intros F; [cbn; lia|]. cbn [fold_right map sum] in *. unfold sum in IHl.
    pose proof (IH a ltac:(lia)). specialize (IHl ltac:(lia)). cbn [fold_right]. lia. }
  destruct s; cbn [size] in L; cbn [need];
    repeat match goal with |- context [bytes ?k] => lazymatch goal with H : 0 <= bytes k |- _ => fail | _ => pose proof (bytes_nonneg k) end end;
    try match goal with |- context [sum (map need ?l)] => pose proof (SL l ltac:(lia)) end;
    repeat match goal with |- context [need ?x] => lazymatch goal with H : 4 <= need x |- _ => fail | _ => pose proof (IH x ltac:(lia)) end end;
    try lia.
Qed.
Lemma need4 s : 4 <= need s. Proof. apply (need_pos (size s)); lia. Qed.
Lemma sum_nonneg l : 0 <= sum (map need l).
Proof. induction l as [|a l IH]; cbn [map sum fold_right]; [lia|]. unfold sum in IH. pose proof (need4 a); lia. Qed.
Lemma sum_in s l : In s l -> need s <= sum (map need l).
Proof.
  induction l as [|a l IH]; intros HI; [destruct HI|]. destruct HI as [E|E]; cbn [map sum fold_right].
  - subst a. pose proof (sum_nonneg l) as G; unfold sum in G; lia.
  - pose proof (need4 a). specialize (IH E). unfold sum in IH. lia.
Qed.

(* ---- What tasks inherit from statements ---- *)
Definition t_need (t : task) : Z :=
  match t with
  | TStmt _ s => need s | TBody s => need s - 4 | TList l => sum (map need l)
  | TWhile c b | TDo b c => 4 + bytes (c_cells c) + need b
  | TFor c a b => bytes (for_cells c) + 4 + bytes a + need b
  end.
Definition t_tame (t : task) : bool :=
  match t with
  | TStmt ctx s => tame ctx s
  | TBody s => match s with
    | Block l | Switch _ l _ => forallb (tame false) l
    | If _ t => tame true t
    | IfElse _ t e => tame true t && tame true e
    | While _ b | Do b _ => tame true b
    | For _ c _ b => (for_cells c <=? 0) && tame true b
    | _ => true end
  | TList l => forallb (tame false) l
  | TWhile _ b | TDo b _ => tame true b
  | TFor c _ b => (for_cells c <=? 0) && tame true b
  end.
Definition t_pend (t : task) : bool :=
  match t with
  | TStmt ctx s => if ctx then false else pending s
  | TBody s => match s with Block l => existsb pending l | _ => pending s end
  | TList l => existsb pending l
  | _ => false
  end.
Definition t_breaks (t : task) : bool :=
  match t with TStmt _ s | TBody s => breaks s | TList l => existsb breaks l | _ => false end.
Definition t_conts (t : task) : bool :=
  match t with TStmt _ s | TBody s => conts s | TList l => existsb conts l | _ => false end.
Definition t_flow (t : task) : flowt :=
  match t with
  | TStmt _ s | TBody s => flow s | TList l => first_flow (map flow l)
  | TWhile c b | TDo b c => loop_flow (Some c) b
  | TFor c _ b => loop_flow c b
  end.
Lemma tame_eq ctx s : tame ctx s = tight ctx s && t_tame (TBody s). Proof. destruct s; reflexivity. Qed.

Lemma escapes sc lp t e o : path sc lp t e o -> (o = Brk -> t_breaks t = true) /\ (o = Cnt -> t_conts t = true).
Proof.
  assert (EX : forall (f : stmt -> bool) s l, In s l -> f s = true -> existsb f l = true)
    by (intros f s l HI HF; apply existsb_exists; eauto).
  assert (LB : forall o, goes_on o = false -> left_by o <> Brk /\ left_by o <> Cnt)
    by (intros [] G; cbn in *; split; congruence).
  induction 1; cbn [t_breaks t_conts breaks conts existsb] in *; try (split; discriminate);
    repeat match goal with H : _ /\ _ |- _ => destruct H end; try tauto.
  all: try (destruct (LB _ ltac:(eassumption)) as [L1 L2]; split; congruence).
  all: split; intros E; try discriminate; rewrite ?orb_true_iff; eauto 6.
Qed.
Lemma first_flow_cons f l : first_flow (f :: l) = match f with FNone => first_flow l | f => f end.
Proof. destruct f; reflexivity. Qed.
Lemma same_in fs f : In f fs -> same_flow fs = FReturn -> f = FReturn.
Proof.
  destruct fs as [|g r]; intros HI; [destruct HI|]. cbn [same_flow]. destruct (forallb (flow_eqb g) r) eqn:F; [|discriminate].
  intros ->. destruct HI as [->|HI]; [reflexivity|]. rewrite forallb_forall in F. specialize (F _ HI). destruct f; cbn in F; congruence.
Qed.
Lemma loop_ret c b : loop_flow c b = FReturn -> always c = true /\ breaks b = false.
Proof. unfold loop_flow. destruct (always c), (breaks b), (rets b); cbn; try discriminate. auto. Qed.
Lemma flow_sound sc lp t e o : path sc lp t e o -> t_flow t = FReturn -> o <> Nrm.
Proof.
  assert (W : forall c, always c = true -> may c false = true -> False).
  { intros [c|]; cbn; [|discriminate]. destruct (c_const c) as [[]|]; cbn; congruence. }
  assert (LV : forall sc lp b e o, path sc lp (TStmt true b) e o -> breaks b = false -> goes_on o = false -> left_by o <> Nrm).
  { intros sc0 lp0 b0 e0 o0 HP HB HG HL. destruct o0; cbn in *; try discriminate.
    destruct (escapes _ _ _ _ _ HP) as [X _]. specialize (X eq_refl). cbn in X. congruence. }
  induction 1; cbn [t_flow flow map] in *; try discriminate; intros F; auto.
  - (* next *) rewrite first_flow_cons in F. destruct (flow s) eqn:FS; try discriminate; [auto|]. destruct (IHpath1 eq_refl eq_refl).
  - (* then *) destruct (flow_eqb (flow t) (flow f)); [auto|discriminate].
  - destruct (flow_eqb (flow t) (flow f)) eqn:Q; [|discriminate]. apply IHpath. rewrite F in Q. destruct (flow f); cbn in Q; congruence.
  - destruct d; [|discriminate]. apply IHpath. exact (same_in _ _ (in_map flow _ _ H) F).
  - apply loop_ret in F as [A B]. destruct (W _ A H).
  - apply loop_ret in F as [A B]. eapply LV; eauto.
  - apply loop_ret in F as [A B]. destruct (W _ A H1).
  - apply loop_ret in F as [A B]. eapply LV; eauto.
  - apply loop_ret in F as [A B]. destruct (W _ A H).
  - apply loop_ret in F as [A B]. eapply LV; eauto.
Qed.

(* ---- Scopes left by break and continue ---- *)
Definition nouts (sc : list bool) (lp : nat) : nat := count_occ Bool.bool_dec (firstn (length sc - lp) sc) true.
Lemma outs_repeat sc lp : outs sc lp = repeat OScopeOut (nouts sc lp).
Proof.
  unfold outs, nouts. induction (firstn (length sc - lp) sc) as [|b l IH]; [reflexivity|].
  cbn [flat_map count_occ]. rewrite IH. destruct b; reflexivity.
Qed.
Lemma nouts_cons r sc lp : (lp <= length sc)%nat -> nouts (r :: sc) lp = if r then S (nouts sc lp) else nouts sc lp.
Proof.
  intros L. unfold nouts. cbn [length]. rewrite Nat.sub_succ_l by exact L. cbn [firstn count_occ]. destruct r; reflexivity.
Qed.
Lemma nouts_loop sc : nouts sc (length sc) = 0%nat.
Proof. unfold nouts. rewrite Nat.sub_diag. reflexivity. Qed.
Lemma track_outs n : forall h stk, (S n <= length stk)%nat ->
  track (repeat OScopeOut (S n)) (h, stk) = (nth n stk 0, skipn (S n) stk).
Proof.
  induction n as [|n IH]; intros h stk L; (destruct stk as [|x stk]; [cbn in L; lia|]).
  - reflexivity.
  - change (repeat OScopeOut (S (S n))) with (OScopeOut :: repeat OScopeOut (S n)). cbn [track track1].
    rewrite IH by (cbn [length] in L; lia). reflexivity.
Qed.
Lemma fine_outs B n : forall h stk, (n <= length stk)%nat -> Forall (fun x => x <= B) stk -> fine B (repeat OScopeOut n) (h, stk).
Proof.
  induction n as [|n IH]; intros h stk L F; [exact Logic.I|]. destruct stk as [|x stk]; [cbn in L; lia|].
  apply Forall_cons_iff in F as [F1 F2]. cbn [repeat fine]. split; [split; [exact F1|discriminate]|].
  cbn [track1]. apply IH; [cbn [length] in L; lia|exact F2].
Qed.
Lemma track_alloc k h stk : track (alloc k) (h, stk) = (h + bytes k, stk).
Proof. unfold alloc, bytes. destruct (0 <? k) eqn:E; cbn [track track1]; f_equal; lia. Qed.
Lemma fine_alloc B k h stk : h + bytes k <= B -> fine B (alloc k) (h, stk).
Proof. unfold alloc, bytes. destruct (0 <? k) eqn:E; cbn [fine]; [|tauto]. intros L. split; [|exact Logic.I]. split; cbn [track1 fst]; lia. Qed.
Lemma track_scoped k h stk : track (scoped k) (h, stk) = (h, stk).
Proof. unfold scoped. destruct (0 <? k); reflexivity. Qed.
Lemma fine_scoped B k h stk : h + 4 + bytes k <= B -> fine B (scoped k) (h, stk).
Proof.
  unfold scoped, bytes. destruct (0 <? k) eqn:E; cbn [fine]; [|tauto]. intros L.
  repeat apply conj; cbn [track1 fst snd]; try lia; try exact Logic.I; try discriminate.
Qed.
Lemma alloc0 k : (0 <? k) = false -> bytes k = 0. Proof. unfold bytes; lia. Qed.

Definition stays (N : Z) (p : bool) (e : list op) (h : Z) (stk : list Z) : Prop :=
  exists h', track e (h, stk) = (h', stk) /\ h <= h' <= h + N /\ (p = false -> h' = h).
Definition ends (N : Z) (p : bool) (o : out) (n : nat) (e : list op) (h : Z) (stk : list Z) : Prop :=
  match o with
  | Nrm => stays N p e h stk
  | Brk | Cnt => match n with O => stays N p e h stk | S m => track e (h, stk) = (nth m stk 0, skipn n stk) end
  | Ret | Stop => True
  end.
Definition bounded (N : Z) (p : bool) (o : out) (n : nat) (e : list op) (h : Z) (stk : list Z) : Prop :=
  fine (h + N) e (h, stk) /\ ends N p o n e h stk.
(* First d bytes taken by e0, then something bounded from there. *)
Lemma bounded_app N N' p p' o n e0 e h h1 stk :
  track e0 (h, stk) = (h1, stk) -> fine (h + N) e0 (h, stk) -> h <= h1 -> h1 + N' <= h + N ->
  (p = false -> h1 = h /\ p' = false) -> bounded N' p' o n e h1 stk -> bounded N p o n (e0 ++ e) h stk.
Proof.
  intros T F L1 L2 PP [B1 B2]. split.
  - rewrite fine_app, T. split; [exact F|]. eapply fine_mono; [|exact B1]. lia.
  - assert (ST : stays N' p' e h1 stk -> stays N p (e0 ++ e) h stk).
    { intros (h' & Q1 & Q2 & Q3). exists h'. rewrite track_app, T. split; [exact Q1|]. split; [lia|].
      intros E. destruct (PP E) as [E1 E2]. rewrite (Q3 E2). exact E1. }
    destruct o; cbn [ends] in *; auto; destruct n; auto; rewrite track_app, T; exact B2.
Qed.
Lemma bounded_weaken N N' (p p' : bool) o n e h stk : N' <= N -> (p = false -> p' = false) ->
  bounded N' p' o n e h stk -> bounded N p o n e h stk.
Proof.
  intros L PP [B1 B2]. split; [eapply fine_mono; [|exact B1]; lia|].
  assert (ST : stays N' p' e h stk -> stays N p e h stk).
  { intros (h' & Q1 & Q2 & Q3). exists h'. split; [exact Q1|]. split; [lia|auto]. }
  destruct o; cbn [ends] in *; auto; destruct n; auto.
Qed.
Lemma bounded_same N o n e h stk : goes_on o = true \/ o = Brk -> n = O -> bounded N false o n e h stk -> track e (h, stk) = (h, stk).
Proof.
  intros G -> [_ B]. assert (ST : stays N false e h stk) by (destruct o; cbn in *; auto; destruct G; discriminate).
  destruct ST as (h' & Q1 & _ & Q3). rewrite Q1, (Q3 eq_refl). reflexivity.
Qed.
Lemma bounded_left N o e h stk : goes_on o = false -> bounded N false o 0 e h stk -> forall n, bounded N false (left_by o) n e h stk.
Proof. intros G [B1 B2] n. split; [exact B1|]. destruct o; cbn in *; try discriminate; auto. Qed.
Lemma bounded_alloc N p o n k h stk : p = (0 <? k) -> bytes k <= N -> o = Nrm \/ o = Ret -> bounded N p o n (alloc k) h stk.
Proof.
  intros -> L O. split; [apply fine_alloc; lia|].
  assert (stays N (0 <? k) (alloc k) h stk).
  { exists (h + bytes k). rewrite track_alloc. split; [reflexivity|]. pose proof (bytes_nonneg k). split; [lia|].
    intros E. rewrite (alloc0 k E). lia. }
  destruct O as [-> | ->]; cbn [ends]; auto.
Qed.
Lemma Forall_le h h' stk : h <= h' -> Forall (fun x => x <= h) stk -> Forall (fun x => x <= h') stk.
Proof. intros L. apply Forall_impl. intros; lia. Qed.

Lemma path_bounded sc lp t e o : path sc lp t e o -> t_tame t = true -> (lp <= length sc)%nat ->
  forall h stk, (nouts sc lp <= length stk)%nat -> Forall (fun x => x <= h) stk ->
  bounded (t_need t) (t_pend t) o (nouts sc lp) e h stk.
Proof.
  induction 1; intros T L h stk K F.
  - (* stop *) split; [exact Logic.I|exact Logic.I].
  - (* own *)
    cbn [t_tame] in T. rewrite tame_eq in T. apply andb_true_iff in T as [T1 T2].
    unfold tight in T1. rewrite H in T1. cbn [andb] in T1.
    assert (PD : t_pend (TStmt ctx s) = false).
    { cbn [t_pend]. destruct ctx; [reflexivity|]. destruct s; try discriminate H; reflexivity. }
    rewrite PD. destruct (needs_restore s) eqn:R.
    + cbn [save restore app]. pose proof (nouts_cons true sc lp L) as NC. cbn [negb] in NC.
      specialize (IHpath T2 ltac:(cbn [length]; lia) (h + 4) (h :: stk)).
      rewrite NC in IHpath. destruct IHpath as [B1 B2]; [cbn [length]; lia|constructor; [lia|apply (Forall_le h); [lia|exact F]]|].
      cbn [t_need] in *. split.
      * cbn [fine]. split; [split; [cbn [track1 fst]; pose proof (need4 s); lia|exact Logic.I]|]. cbn [track1].
        rewrite fine_app. split; [eapply fine_mono; [|exact B1]; lia|].
        destruct o; try exact Logic.I. destruct B2 as (h' & Q1 & Q2 & _). rewrite Q1. cbn [fine]. split; [|exact Logic.I].
        split; [cbn [track1 fst]; pose proof (need4 s); lia|discriminate].
      * destruct o; cbn [ends] in *; try exact Logic.I.
        -- destruct B2 as (h' & Q1 & Q2 & _). exists h. cbn [track track1]. rewrite track_app, Q1. cbn [track track1].
           split; [reflexivity|]. pose proof (need4 s). split; [lia|auto].
        -- rewrite app_nil_r. cbn [track track1]. rewrite B2. destruct (nouts sc lp); [|reflexivity].
           exists h. cbn [nth skipn track track1]. rewrite B2. split; [reflexivity|]. pose proof (need4 s). split; [lia|auto].
        -- rewrite app_nil_r. cbn [track track1]. rewrite B2. destruct (nouts sc lp); [|reflexivity].
           exists h. cbn [nth skipn track track1]. rewrite B2. split; [reflexivity|]. pose proof (need4 s). split; [lia|auto].
    + cbn [negb andb] in T1. apply negb_true_iff, orb_false_iff in T1 as [TB TC].
      pose proof (escapes _ _ _ _ _ H0) as [E1 E2]. cbn [t_breaks t_conts] in E1, E2.
      assert (NN : o <> Nrm).
      { apply (flow_sound _ _ _ _ _ H0). cbn [t_flow]. unfold needs_restore in R. destruct (flow s); cbn in R; congruence. }
      pose proof (nouts_cons false sc lp L) as NC. cbv iota in NC.
      specialize (IHpath T2 ltac:(cbn [length]; lia) h stk ltac:(rewrite NC; exact K) F). destruct IHpath as [B1 B2].
      cbn [save restore app t_need] in *. split.
      * replace (match o with Nrm => [] | _ => [] end) with (@nil op) by (destruct o; reflexivity). rewrite app_nil_r.
        eapply fine_mono; [|exact B1]; lia.
      * destruct o; cbn [ends]; try exact Logic.I; [congruence|specialize (E1 eq_refl); congruence|specialize (E2 eq_refl); congruence].
  - (* free *)
    cbn [t_tame] in T. rewrite tame_eq in T. apply andb_true_iff in T as [_ T2].
    apply (bounded_weaken _ (t_need (TBody s)) _ (t_pend (TBody s))); [cbn [t_need]; lia| |apply IHpath; auto].
    cbn [t_pend]. intros P. destruct s; cbn [owned] in H; auto; destruct ctx; cbn [andb] in H; auto.
  - (* plain *) apply bounded_alloc; auto. cbn [t_need need]. lia.
  - (* block *)
    apply (bounded_weaken _ (t_need (TList l)) _ (t_pend (TList l))); [cbn [t_need need]; lia|auto|apply IHpath; auto].
  - (* nil *) split; [exact Logic.I|]. exists h. cbn. split; [reflexivity|]. split; [lia|auto].
  - (* next *)
    cbn [t_tame forallb] in T. apply andb_true_iff in T as [T1 T2].
    specialize (IHpath1 T1 L h stk K F). destruct IHpath1 as [B1 (h' & Q1 & Q2 & Q3)].
    assert (NE : t_need (TList (s :: l)) = need s + t_need (TList l)) by reflexivity. cbn [t_need t_pend] in Q2, Q3, B1.
    pose proof (sum_nonneg l). 
    apply (bounded_app _ (t_need (TList l)) _ (t_pend (TList l)) _ _ _ _ _ h').
    + exact Q1.
    + eapply fine_mono; [|exact B1]. rewrite NE. cbn [t_need]. lia.
    + lia.
    + rewrite NE. lia.
    + cbn [t_pend existsb]. rewrite orb_false_iff. intros [P1 P2]. split; [auto|exact P2].
    + apply IHpath2; auto. apply (Forall_le h); [lia|exact F].
  - (* leave *)
    cbn [t_tame forallb] in T. apply andb_true_iff in T as [T1 T2].
    apply (bounded_weaken _ (t_need (TStmt false s)) _ (t_pend (TStmt false s))); [|cbn [t_pend existsb]; rewrite orb_false_iff; tauto|apply IHpath; auto].
    assert (NE : t_need (TList (s :: l)) = need s + t_need (TList l)) by reflexivity. rewrite NE. pose proof (sum_nonneg l). cbn [t_need]; lia.
  - (* if *)
    cbn [t_tame] in T. pose proof (bytes_nonneg k). pose proof (need4 t).
    apply (bounded_app _ (need t) _ false _ _ _ _ _ (h + bytes k)); try apply track_alloc; cbn [t_need need t_pend pending]; try lia.
    + apply fine_alloc. lia.
    + intros P. rewrite (alloc0 k P). split; [lia|reflexivity].
    + apply (IHpath T L); auto. apply (Forall_le h); [lia|exact F].
  - apply bounded_alloc; auto. cbn [t_need need]. pose proof (need4 t). lia.
  - (* then *)
    cbn [t_tame] in T. apply andb_true_iff in T as [T1 T2]. pose proof (bytes_nonneg k). pose proof (need4 t). pose proof (need4 f).
    apply (bounded_app _ (need t) _ false _ _ _ _ _ (h + bytes k)); try apply track_alloc; cbn [t_need need t_pend pending]; try lia.
    + apply fine_alloc. lia.
    + intros P. rewrite (alloc0 k P). split; [lia|reflexivity].
    + apply (IHpath T1 L); auto. apply (Forall_le h); [lia|exact F].
  - (* else *)
    cbn [t_tame] in T. apply andb_true_iff in T as [T1 T2]. pose proof (bytes_nonneg k). pose proof (need4 t). pose proof (need4 f).
    apply (bounded_app _ (need f) _ false _ _ _ _ _ (h + bytes k)); try apply track_alloc; cbn [t_need need t_pend pending]; try lia.
    + apply fine_alloc. lia.
    + intros P. rewrite (alloc0 k P). split; [lia|reflexivity].
    + apply (IHpath T2 L); auto. apply (Forall_le h); [lia|exact F].
  - (* case *)
    cbn [t_tame] in T. rewrite forallb_forall in T. pose proof (bytes_nonneg k). pose proof (sum_in _ _ H). pose proof (need4 s).
    apply (bounded_app _ (need s) _ (pending s) _ _ _ _ _ (h + bytes k)); try apply track_alloc; cbn [t_need need t_pend pending]; try lia.
    + apply fine_alloc. lia.
    + rewrite orb_false_iff. intros [P P']. rewrite (alloc0 k P). split; [lia|].
      destruct (pending s) eqn:E; [|reflexivity]. rewrite <- P'. symmetry. apply existsb_exists. eauto.
    + apply (IHpath (T _ H) L); auto. apply (Forall_le h); [lia|exact F].
  - (* no case *)
    apply (bounded_weaken _ (bytes k) _ (0 <? k)); [cbn [t_need need]; pose proof (sum_nonneg l); lia| |apply bounded_alloc; auto; lia].
    cbn [t_pend pending]. rewrite orb_false_iff. tauto.
  - (* break *)
    rewrite outs_repeat. split; [apply fine_outs; auto; cbn; rewrite Z.add_0_r; exact F|]. cbn [ends]. destruct (nouts sc lp) as [|m] eqn:N.
    + exists h. cbn. split; [reflexivity|]. split; [lia|auto].
    + apply track_outs. lia.
  - rewrite outs_repeat. split; [apply fine_outs; auto; cbn; rewrite Z.add_0_r; exact F|]. cbn [ends]. destruct (nouts sc lp) as [|m] eqn:N.
    + exists h. cbn. split; [reflexivity|]. split; [lia|auto].
    + apply track_outs. lia.
  - apply bounded_alloc; auto. cbn [t_need need]. lia.
  - (* while *) apply (bounded_weaken _ (t_need (TWhile c b)) _ false); [cbn [t_need need]; lia|auto|apply IHpath; auto].
  - apply (bounded_weaken _ (t_need (TDo b c)) _ false); [cbn [t_need need]; lia|auto|apply IHpath; auto].
  - (* for *)
    pose proof (bytes_nonneg i). pose proof (bytes_nonneg (for_cells c)). pose proof (bytes_nonneg a). pose proof (need4 b).
    apply (bounded_app _ (t_need (TFor c a b)) _ false _ _ _ _ _ (h + bytes i)); try apply track_alloc; cbn [t_need need t_pend pending]; try lia.
    + apply fine_alloc. lia.
    + rewrite orb_false_iff. intros [P _]. rewrite (alloc0 i P). split; [lia|reflexivity].
    + apply IHpath; auto. apply (Forall_le h); [lia|exact F].
  - (* while: exit *)
    pose proof (bytes_nonneg (c_cells c)). pose proof (need4 b). split; [apply fine_scoped; cbn [t_need]; lia|].
    exists h. rewrite track_scoped. cbn [t_need]. split; [reflexivity|]. split; [lia|auto].
  - (* round *)
    pose proof (bytes_nonneg (c_cells c)). pose proof (need4 b). cbn [t_tame] in T.
    specialize (IHpath1 T ltac:(lia) h stk). rewrite nouts_loop in IHpath1. specialize (IHpath1 ltac:(lia) F).
    pose proof (bounded_same _ _ _ _ _ _ (or_introl H1) eq_refl IHpath1) as Q.
    rewrite app_assoc. apply (bounded_app _ (t_need (TWhile c b)) _ false _ _ _ _ _ h); try lia; auto.
    + rewrite track_app, track_scoped. exact Q.
    + rewrite fine_app, track_scoped. split; [apply fine_scoped; cbn [t_need]; lia|]. eapply fine_mono; [|apply IHpath1]. cbn [t_need]. lia.
  - pose proof (bytes_nonneg (c_cells c)). pose proof (need4 b). cbn [t_tame] in T.
    specialize (IHpath T ltac:(lia) h stk). rewrite nouts_loop in IHpath. specialize (IHpath ltac:(lia) F).
    apply (bounded_app _ (need b) _ false _ _ _ _ _ h); try apply track_scoped; cbn [t_need]; try lia; auto.
    + apply fine_scoped. lia.
    + apply bounded_left; auto.
  - (* do: exit *)
    pose proof (bytes_nonneg (c_cells c)). pose proof (need4 b). cbn [t_tame] in T.
    specialize (IHpath T ltac:(lia) h stk). rewrite nouts_loop in IHpath. specialize (IHpath ltac:(lia) F).
    pose proof (bounded_same _ _ _ _ _ _ (or_introl H0) eq_refl IHpath) as Q.
    apply (bounded_app _ (4 + bytes (c_cells c)) _ false _ _ _ _ _ h); cbn [t_need]; try lia; auto.
    + eapply fine_mono; [|apply IHpath]. cbn [t_need]. lia.
    + split; [apply fine_scoped; lia|]. exists h. rewrite track_scoped. split; [reflexivity|]. split; [lia|auto].
  - (* do: round *)
    pose proof (bytes_nonneg (c_cells c)). pose proof (need4 b). cbn [t_tame] in T.
    specialize (IHpath1 T ltac:(lia) h stk). rewrite nouts_loop in IHpath1. specialize (IHpath1 ltac:(lia) F).
    pose proof (bounded_same _ _ _ _ _ _ (or_introl H0) eq_refl IHpath1) as Q.
    rewrite app_assoc. apply (bounded_app _ (t_need (TDo b c)) _ false _ _ _ _ _ h); try lia; auto.
    + rewrite track_app, Q. apply track_scoped.
    + rewrite fine_app, Q. split; [|apply fine_scoped; cbn [t_need]; lia]. eapply fine_mono; [|apply IHpath1]. cbn [t_need]. lia.
  - pose proof (bytes_nonneg (c_cells c)). cbn [t_tame] in T.
    specialize (IHpath T ltac:(lia) h stk). rewrite nouts_loop in IHpath. specialize (IHpath ltac:(lia) F).
    apply (bounded_weaken _ (need b) _ false); [cbn [t_need]; lia|auto|]. apply bounded_left; auto.
  - (* for: exit *)
    cbn [t_tame] in T. apply andb_true_iff in T as [T1 T2]. pose proof (bytes_nonneg a). pose proof (need4 b).
    unfold alloc. replace (0 <? for_cells c) with false by lia. split; [exact Logic.I|].
    pose proof (bytes_nonneg (for_cells c)). exists h. cbn [t_need track]. split; [reflexivity|]. split; [lia|auto].
  - (* for: round *)
    cbn [t_tame] in T. pose proof T as T'. apply andb_true_iff in T' as [T1 T2]. pose proof (bytes_nonneg a). pose proof (need4 b). pose proof (bytes_nonneg (for_cells c)).
    unfold alloc. replace (0 <? for_cells c) with false by lia. cbn [app].
    specialize (IHpath1 T2 ltac:(lia) h stk). rewrite nouts_loop in IHpath1. specialize (IHpath1 ltac:(lia) F).
    pose proof (bounded_same _ _ _ _ _ _ (or_introl H1) eq_refl IHpath1) as Q.
    rewrite app_assoc. apply (bounded_app _ (t_need (TFor c a b)) _ false _ _ _ _ _ h); try lia; auto.
    + rewrite track_app, Q. apply track_scoped.
    + rewrite fine_app, Q. split; [|apply fine_scoped; cbn [t_need]; lia]. eapply fine_mono; [|apply IHpath1]. cbn [t_need]. lia.
  - cbn [t_tame] in T. apply andb_true_iff in T as [T1 T2]. pose proof (bytes_nonneg a). pose proof (bytes_nonneg (for_cells c)).
    unfold alloc. replace (0 <? for_cells c) with false by lia. cbn [app].
    specialize (IHpath T2 ltac:(lia) h stk). rewrite nouts_loop in IHpath. specialize (IHpath ltac:(lia) F).
    apply (bounded_weaken _ (need b) _ false); [cbn [t_need]; lia|auto|]. apply bounded_left; auto.
Qed.
