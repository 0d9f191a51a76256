From Coq Require Import ZArith List Bool Lia.
From Verif Require Import Aside_Model Aside_Spec.
Import ListNotations.
Local Open Scope Z_scope.

(* ----------------------------------------------------------- the table *)

Lemma find_node_In : forall g f l, find_node g f = Some l -> In (f, l) g.
Proof.
  intros g f l H. unfold find_node in H. destruct (find (fun e => fst e =? f) g) as [[a b]|] eqn:E; [|discriminate].
  injection H as <-. apply find_some in E as [I E]. cbn in *. apply Z.eqb_eq in E. subst a. exact I.
Qed.

Lemma In_find_node : forall g f l, listed_once g -> In (f, l) g -> find_node g f = Some l.
Proof.
  unfold listed_once, find_node. induction g as [|[a b] g IH]; intros f l D I; [destruct I|].
  cbn [find map fst] in *. inversion D as [|? ? NI D']; subst.
  destruct I as [E|I].
  - injection E as -> ->. now rewrite Z.eqb_refl.
  - destruct (a =? f) eqn:E; [|now apply IH].
    apply Z.eqb_eq in E. subst a. exfalso. apply NI. change f with (fst (f, l)). now apply in_map.
Qed.

Lemma find_node_none : forall g f, find_node g f = None -> forall l, ~ In (f, l) g.
Proof.
  intros g f H l I. unfold find_node in H. destruct (find (fun e => fst e =? f) g) eqn:E; [discriminate|].
  apply (find_none _ _ E) in I. cbn in I. now rewrite Z.eqb_refl in I.
Qed.

Lemma erase_same : forall g f, find_node (erase g f) f = None.
Proof.
  intros g f. unfold find_node, erase.
  destruct (find (fun e => fst e =? f) (filter (fun e => negb (fst e =? f)) g)) eqn:E; [|reflexivity].
  apply find_some in E as [I E]. apply filter_In in I as [_ N]. rewrite E in N. discriminate.
Qed.

Lemma erase_other : forall g f h, f <> h -> find_node (erase g f) h = find_node g h.
Proof.
  intros g f h N. unfold find_node, erase. induction g as [|[a b] g IH]; [reflexivity|].
  cbn [filter find fst]. destruct (a =? f) eqn:E; cbn [negb].
  - apply Z.eqb_eq in E. subst a. destruct (f =? h) eqn:F; [lia|exact IH].
  - cbn [find fst]. destruct (a =? h); [reflexivity|exact IH].
Qed.

Lemma erase_shorter : forall g f l, find_node g f = Some l -> (length (erase g f) < length g)%nat.
Proof.
  intros g f l H. apply find_node_In in H. unfold erase. induction g as [|[a b] g IH]; [destruct H|].
  cbn [filter length fst]. assert (L : forall h : graph, (length (filter (fun e => negb (fst e =? f)%Z) h) <= length h)%nat).
  { clear. induction h as [|e h IH]; cbn; [lia|]. destruct (negb _); cbn; lia. }
  destruct H as [E|I].
  - injection E as -> ->. rewrite Z.eqb_refl. cbn. specialize (L g). lia.
  - specialize (IH I). destruct (negb (a =? f)); cbn; lia.
Qed.

Lemma erase_le : forall g f, (length (erase g f) <= length g)%nat.
Proof. intros g f. unfold erase. induction g as [|e h IH]; cbn; [lia|]. destruct (negb _); cbn; lia. Qed.

(* ---------------------------------------------------------- it ends *)

Section Ends.
Variable loc : Z -> Z.

Definition shrinks (o : outcome) (n : nat) : Prop :=
  match o with Done st => (length (m_graph st) <= n)%nat | TooBig => True | OutOfFuel => False end.

Lemma each_ends : forall vis caller n,
  (forall st t l, find_node (m_graph st) t = Some l -> (length (m_graph st) <= n)%nat ->
     shrinks (vis st t) (length (m_graph st))) ->
  forall targets mx st, (length (m_graph st) <= n)%nat ->
  shrinks (each loc vis caller targets mx st) (length (m_graph st)).
Proof.
  intros vis caller n V. induction targets as [|t rest IH]; intros mx st L; cbn [each]; [cbn; lia|].
  set (r := if m_callee st t =? 0 then match find_node (m_graph st) t with Some _ => vis st t | None => Done st end
            else Done st).
  assert (R : shrinks r (length (m_graph st))).
  { unfold r. destruct (m_callee st t =? 0); [|cbn; lia].
    destruct (find_node (m_graph st) t) eqn:F; [|cbn; lia]. eapply V; eassumption. }
  destruct r as [st'| |]; cbn in R; [|exact Logic.I|exact R].
  destruct (kMaxCells <=? loc t + m_callee st' t); [exact Logic.I|].
  specialize (IH (Z.max mx (loc t + m_callee st' t)) (set_callee st' caller (Z.max mx (loc t + m_callee st' t)))).
  cbn [set_callee m_graph] in IH. specialize (IH ltac:(lia)).
  destruct (each _ _ _ _ _ _); cbn in *; auto. lia.
Qed.

Lemma visit_ends : forall fuel st caller l,
  find_node (m_graph st) caller = Some l -> (length (m_graph st) < fuel)%nat ->
  shrinks (visit loc fuel st caller) (length (m_graph st)).
Proof.
  induction fuel as [|fuel IH]; intros st caller l F L; [lia|].
  cbn [visit]. rewrite F. pose proof (erase_shorter _ _ _ F) as SH.
  set (st1 := {| m_graph := erase (m_graph st) caller; m_callee := m_callee st; m_script := m_script st |}).
  assert (E : shrinks (each loc (visit loc fuel) caller (rev l) 0 st1) (length (m_graph st1))).
  { apply (each_ends _ _ (length (m_graph st1))); [|lia].
    intros st' t l' F' L'. eapply IH; [exact F'|]. cbn in L'. lia. }
  destruct (each _ _ _ _ _ _) as [st2| |]; cbn in *; auto.
  destruct (kMaxCells <=? loc caller + m_callee st2 caller); cbn; auto. lia.
Qed.

Lemma compute_ends : forall g script, compute loc g script <> OutOfFuel.
Proof.
  intros g script H. unfold compute in H. destruct g as [|[f l] g]; [discriminate|].
  set (st := {| m_graph := (f, l) :: g; m_callee := fun _ => 0; m_script := script |}) in H.
  assert (F : find_node (m_graph st) f = Some l) by (cbn; unfold find_node; cbn; now rewrite Z.eqb_refl).
  pose proof (visit_ends (S (length ((f, l) :: g))) st f l F ltac:(cbn; lia)) as E.
  rewrite H in E. exact E.
Qed.
End Ends.

(* ------------------------------------------- programs without recursion *)

Section Acyclic.
Variable loc : Z -> Z.
Variable g0 : graph.
Variable rank : Z -> nat.
Hypothesis Once : listed_once g0.
Hypothesis Rank : forall f t, calls g0 f t -> (rank t < rank f)%nat.
Hypothesis Loc : forall f, 0 < loc f.
Hypothesis Calls : has_calls g0.

Definition exact (f v : Z) : Prop := chain g0 loc f v /\ forall s, chain g0 loc f s -> s <= v.

Definition fresh (st : mst) (f : Z) : Prop :=
  (exists l, find_node g0 f = Some l /\ find_node (m_graph st) f = Some l) /\ m_callee st f = 0.
Definition finished (st : mst) (f : Z) : Prop :=
  find_node (m_graph st) f = None /\ exact f (loc f + m_callee st f) /\
  (m_callee st f = 0 -> find_node g0 f = None).
Definition settled (st : mst) (n : nat) : Prop :=
  forall f, (rank f < n)%nat -> fresh st f \/ finished st f.
Definition untouched (st st' : mst) (t : Z) : Prop :=
  forall f, (rank t <= rank f)%nat -> f <> t ->
    find_node (m_graph st') f = find_node (m_graph st) f /\ m_callee st' f = m_callee st f.

Lemma chain_pos : forall f s, chain g0 loc f s -> 0 < s.
Proof. intros f s H. induction H as [f|f t s _ _ IH]; specialize (Loc f); lia. Qed.

Lemma fresh_ext : forall st st' f, find_node (m_graph st') f = find_node (m_graph st) f ->
  m_callee st' f = m_callee st f -> fresh st f -> fresh st' f.
Proof. intros st st' f A B (X & Y). unfold fresh. rewrite A, B. auto. Qed.
Lemma finished_ext : forall st st' f, find_node (m_graph st') f = find_node (m_graph st) f ->
  m_callee st' f = m_callee st f -> finished st f -> finished st' f.
Proof. intros st st' f A B (X & Y & W). unfold finished. rewrite A, B. auto. Qed.

Variable Bound : Z.
Hypothesis Bounded : forall f s, chain g0 loc f s -> s < kMaxCells -> s <= Bound.

Definition visit_good (vis : mst -> Z -> outcome) : Prop :=
  forall st t st', fresh st t -> settled st (S (rank t)) -> m_script st <= Bound ->
    vis st t = Done st' ->
    finished st' t /\ settled st' (S (rank t)) /\ untouched st st' t /\
    m_script st <= m_script st' /\ m_script st' <= Bound /\ loc t + m_callee st' t <= m_script st'.

(* One target: it is finished afterwards. *)
Lemma target_good : forall vis caller t st st',
  visit_good vis -> calls g0 caller t -> settled st (rank caller) -> m_script st <= Bound ->
  (if m_callee st t =? 0 then match find_node (m_graph st) t with Some _ => vis st t | None => Done st end
   else Done st) = Done st' ->
  finished st' t /\ settled st' (rank caller) /\
  (forall f, (rank caller <= rank f)%nat ->
     find_node (m_graph st') f = find_node (m_graph st) f /\ m_callee st' f = m_callee st f) /\
  m_script st <= m_script st' /\ m_script st' <= Bound.
Proof.
  intros vis caller t st st' V C SE MB H. pose proof (Rank _ _ C) as RT.
  destruct (SE t RT) as [FR|FI].
  - destruct FR as ((l & A & B) & Z0). rewrite Z0, B in H. cbn in H.
    destruct (V st t st') as (F & ST & UN & M1 & M2 & M3); auto.
    { split; eauto. }
    { intros f L. apply SE. lia. }
    split; [exact F|]. split; [|split; [|lia]].
    + intros f L. destruct (Nat.le_gt_cases (rank f) (rank t)) as [LE|GT]; [apply ST; lia|].
      assert (NE : f <> t) by (intros ->; lia).
      destruct (UN f ltac:(lia) NE) as [U1 U2].
      destruct (SE f L) as [X|X]; [left; eapply fresh_ext|right; eapply finished_ext]; eassumption.
    + intros f L. apply UN; [lia|]. intros ->. lia.
  - assert (E : st' = st).
    { destruct FI as (A & _). rewrite A in H. destruct (m_callee st t =? 0); congruence. }
    subst st'. split; [exact FI|]. split; [exact SE|]. split; [auto|]. lia.
Qed.

Lemma each_good : forall vis caller, visit_good vis ->
  forall targets mx st st',
  (forall t, In t targets -> calls g0 caller t) ->
  settled st (rank caller) -> m_script st <= Bound ->
  find_node (m_graph st) caller = None -> m_callee st caller = mx -> 0 <= mx ->
  each loc vis caller targets mx st = Done st' ->
  settled st' (rank caller) /\ find_node (m_graph st') caller = None /\
  m_script st <= m_script st' /\ m_script st' <= Bound /\
  untouched st st' caller /\
  mx <= m_callee st' caller /\
  (m_callee st' caller = mx \/ exists t, In t targets /\ chain g0 loc t (m_callee st' caller)) /\
  (forall t s, In t targets -> chain g0 loc t s -> s <= m_callee st' caller).
Proof.
  intros vis caller V. induction targets as [|t rest IH]; intros mx st st' CA SE MB FN CM MX H; cbn [each] in H.
  - injection H as <-. split; [exact SE|]. split; [exact FN|]. split; [lia|]. split; [exact MB|].
    split; [intros f _ _; auto|]. split; [lia|]. split; [auto|]. intros t s [].
  - set (r := if m_callee st t =? 0 then match find_node (m_graph st) t with Some _ => vis st t | None => Done st end
              else Done st) in H.
    destruct r as [st1| |] eqn:R; try discriminate H. unfold r in R.
    assert (CT : calls g0 caller t) by (apply CA; now left).
    destruct (target_good _ _ _ _ _ V CT SE MB R) as (FT & SE1 & UN1 & M1 & M2).
    clear r R.
    destruct (kMaxCells <=? loc t + m_callee st1 t); [discriminate|].
    set (need := loc t + m_callee st1 t) in *.
    set (st2 := set_callee st1 caller (Z.max mx need)) in *.
    assert (NT : t <> caller) by (pose proof (Rank _ _ CT); intros ->; lia).
    assert (EX : exact t need) by apply FT.
    assert (K : forall f, f <> caller -> m_callee st2 f = m_callee st1 f).
    { intros f N. unfold st2. cbn. destruct (f =? caller) eqn:E; [lia|reflexivity]. }
    assert (K0 : m_callee st2 caller = Z.max mx need) by (unfold st2; cbn; now rewrite Z.eqb_refl).
    destruct (IH (Z.max mx need) st2 st') as (SE2 & FN2 & M3 & M4 & UN2 & L & W & ALL); auto.
    + intros u I. apply CA. now right.
    + intros f LF. assert (NF : f <> caller) by (intros ->; lia).
      destruct (SE1 f LF) as [X|X]; [left; eapply fresh_ext|right; eapply finished_ext]; try exact X; auto.
    + destruct (UN1 caller ltac:(lia)) as [U _]. unfold st2. cbn [set_callee m_graph]. now rewrite U.
    + lia.
    + change (m_script st2) with (m_script st1) in M3.
      split; [exact SE2|]. split; [exact FN2|]. split; [lia|]. split; [exact M4|].
      split; [|split; [lia|split]].
      * intros f LF NF. destruct (UN2 f LF NF) as [A B]. destruct (UN1 f LF) as [A1 B1].
        rewrite A, B, (K f NF). unfold st2. cbn [set_callee m_graph]. auto.
      * destruct W as [W|(u & I & W)]; [|right; exists u; split; [now right|exact W]].
        destruct (Z.max_spec mx need) as [[LT E]|[LT E]]; rewrite E in W.
        -- right. exists t. split; [now left|]. rewrite W. apply EX.
        -- left. exact W.
      * intros u s [<- |I] CS; [|eapply ALL; eassumption].
        apply EX in CS. lia.
Qed.

Lemma visit_is_good : forall fuel, visit_good (visit loc fuel).
Proof.
  induction fuel as [|fuel IH]; intros st t st' FR SE MB H; [discriminate|].
  cbn [visit] in H. destruct FR as ((l & A & B) & Z0). rewrite B in H.
  set (st1 := {| m_graph := erase (m_graph st) t; m_callee := m_callee st; m_script := m_script st |}) in *.
  destruct (each loc (visit loc fuel) t (rev l) 0 st1) as [st2| |] eqn:E; try discriminate H.
  destruct (kMaxCells <=? loc t + m_callee st2 t) eqn:KM; [discriminate|]. injection H as <-.
  apply Z.leb_gt in KM.
  assert (ER : forall f, f <> t -> find_node (m_graph st1) f = find_node (m_graph st) f).
  { intros f N. unfold st1. cbn [m_graph]. apply erase_other. congruence. }
  destruct (each_good _ t IH (rev l) 0 st1 st2) as (SE2 & FN2 & M1 & M2 & UN & L & W & ALL); auto.
  { intros u I. apply in_rev in I. exists l. split; [now apply find_node_In|exact I]. }
  { intros f LF. assert (NF : f <> t) by (intros ->; lia).
    destruct (SE f ltac:(lia)) as [X|X]; [left; eapply fresh_ext|right; eapply finished_ext]; try exact X; auto. }
  { unfold st1. cbn [m_graph]. apply erase_same. }
  { lia. }
  assert (POS : exists u, In u l /\ chain g0 loc u (m_callee st2 t)).
  { destruct W as [W|(u & I & W)].
    - exfalso. destruct l as [|u l']; [exact (Calls t [] (find_node_In _ _ _ A) eq_refl)|].
      assert (I : In u (rev (u :: l'))) by (apply -> in_rev; now left).
      specialize (ALL u (loc u) I (ch_one _ _ _)). specialize (Loc u). lia.
    - exists u. split; [now apply in_rev|exact W]. }
  destruct POS as (u & IU & CU).
  assert (EXT : exact t (loc t + m_callee st2 t)).
  { split.
    - eapply ch_call; [|exact CU]. exists l. split; [now apply find_node_In|exact IU].
    - intros s CS. inversion CS as [f|f v s' C CV]; subst.
      + lia.
      + destruct C as (l' & I & IV).
        assert (l' = l) by (apply (In_find_node _ _ _ Once) in I; congruence). subst l'.
        assert (s' <= m_callee st2 t) by (apply (ALL v); [now apply -> in_rev|exact CV]). lia. }
  cbn [m_graph m_callee m_script].
  assert (FIN : finished {| m_graph := m_graph st2; m_callee := m_callee st2;
                            m_script := Z.max (loc t + m_callee st2 t) (m_script st2) |} t).
  { split; [exact FN2|]. split; [exact EXT|]. cbn. intros Z1. apply chain_pos in CU. lia. }
  split; [exact FIN|]. split; [|split; [|split; [|split]]].
  - intros f LF. destruct (Z.eq_dec f t) as [->|NF]; [right; exact FIN|].
    destruct (Nat.lt_ge_cases (rank f) (rank t)) as [LT|GE].
    + destruct (SE2 f LT) as [X|X]; [left; eapply fresh_ext|right; eapply finished_ext]; try exact X; reflexivity.
    + destruct (UN f GE NF) as [U1 U2].
      destruct (SE f LF) as [X|X]; [left; eapply fresh_ext|right; eapply finished_ext]; try exact X; cbn;
        try (rewrite U1; apply ER; exact NF); rewrite U2; reflexivity.
  - intros f LF NF. cbn. destruct (UN f LF NF) as [U1 U2]. rewrite U1, U2. split; [now apply ER|reflexivity].
  - change (m_script st1) with (m_script st) in M1. lia.
  - assert (loc t + m_callee st2 t <= Bound) by (apply (Bounded t); [apply EXT|exact KM]). lia.
  - lia.
Qed.

Lemma visit_top : forall fuel f l script st, find_node g0 f = Some l -> script <= Bound ->
  visit loc fuel {| m_graph := g0; m_callee := fun _ => 0; m_script := script |} f = Done st ->
  script <= m_script st /\ m_script st <= Bound /\
  exact f (loc f + m_callee st f) /\ loc f + m_callee st f <= m_script st.
Proof.
  intros fuel f l script st FN SB H.
  set (st0 := {| m_graph := g0; m_callee := fun _ => 0; m_script := script |}) in H.
  assert (FR : forall x l', find_node g0 x = Some l' -> fresh st0 x).
  { intros x l' F. split; [|reflexivity]. exists l'. split; [exact F|]. exact F. }
  assert (SE : settled st0 (S (rank f))).
  { intros x _. destruct (find_node g0 x) as [l'|] eqn:F; [left; eauto|]. right.
    split; [exact F|]. split; [|auto]. cbn [m_callee st0]. rewrite Z.add_0_r. split; [constructor|].
    intros s CS. inversion CS as [y|y t s' (l' & I & _) _]; subst; [lia|].
    exfalso. exact (find_node_none _ _ F l' I). }
  destruct (visit_is_good fuel st0 f st) as (FI & _ & _ & M1 & M2 & M3); eauto.
  cbn in M1. split; [lia|]. split; [exact M2|]. split; [apply FI|exact M3].
Qed.
End Acyclic.

Lemma compute_good : forall loc g script st bound,
  listed_once g -> no_recursion g -> (forall f, 0 < loc f) -> has_calls g ->
  compute loc g script = Done st -> script <= bound ->
  (forall f s, chain g loc f s -> s < kMaxCells -> s <= bound) ->
  script <= m_script st /\ m_script st <= bound /\
  (forall f, starts_at g f -> forall s, chain g loc f s -> s <= m_script st).
Proof.
  intros loc g script st bound ON (rank & RK) LO HC H SB BO. unfold compute in H. destruct g as [|[f l] r].
  - injection H as <-. cbn. split; [lia|]. split; [exact SB|]. intros f (l & r & E). discriminate.
  - assert (FN : find_node ((f, l) :: r) f = Some l) by (unfold find_node; cbn; now rewrite Z.eqb_refl).
    destruct (visit_top loc ((f, l) :: r) rank ON RK LO HC bound BO _ f l script st FN SB H) as (A & B & C & D).
    split; [exact A|]. split; [exact B|]. intros f' (l' & r' & E) s CS.
    injection E as <- <- <-. apply C in CS. lia.
Qed.

Lemma to_int_small : forall x, 0 <= x < 2 ^ 31 -> to_int x = x.
Proof. intros x H. unfold to_int. rewrite Z.mod_small; lia. Qed.

Lemma set_aside_enough : forall script custom, 0 <= script < kMaxCells -> custom < 2 ^ 29 ->
  4 * script <= set_aside script custom /\ 4 * custom <= set_aside script custom.
Proof.
  intros script custom S C. unfold set_aside, kMaxCells in *.
  destruct (script <? 268435455 - 4096) eqn:E; rewrite to_int_small; lia.
Qed.

Lemma chains_fit : forall loc g script st custom,
  listed_once g -> no_recursion g -> (forall f, 0 < loc f) -> has_calls g ->
  compute loc g script = Done st -> 0 <= script < kMaxCells -> custom < 2 ^ 29 ->
  forall f s, starts_at g f -> chain g loc f s -> 4 * s <= set_aside (m_script st) custom.
Proof.
  intros loc g script st custom ON NR LO HC H SB CU f s SA CS.
  destruct (compute_good loc g script st (kMaxCells - 1) ON NR LO HC H) as (A & B & C); [lia|intros; lia|].
  specialize (C f SA s CS).
  destruct (set_aside_enough (m_script st) custom); [lia|exact CU|]. lia.
Qed.

Lemma single_fit : forall loc g script st custom,
  listed_once g -> no_recursion g -> (forall f, 0 < loc f) -> has_calls g ->
  compute loc g script = Done st -> 0 <= script < kMaxCells -> custom < 2 ^ 29 ->
  4 * script <= set_aside (m_script st) custom /\ 4 * custom <= set_aside (m_script st) custom.
Proof.
  intros loc g script st custom ON NR LO HC H SB CU.
  destruct (compute_good loc g script st (kMaxCells - 1) ON NR LO HC H) as (A & B & C); [lia|intros; lia|].
  destruct (set_aside_enough (m_script st) custom); [lia|exact CU|]. lia.
Qed.

Lemma no_more : forall loc g script st bound,
  listed_once g -> no_recursion g -> (forall f, 0 < loc f) -> has_calls g ->
  compute loc g script = Done st -> script <= bound -> (forall f s, chain g loc f s -> s <= bound) ->
  m_script st <= bound.
Proof.
  intros loc g script st bound ON NR LO HC H SB BO.
  apply (compute_good loc g script st bound ON NR LO HC H SB). intros f s C _. exact (BO f s C).
Qed.
