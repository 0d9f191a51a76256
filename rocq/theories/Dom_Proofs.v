From Verif Require Import Base Base_Proofs Rt_Model Array_Model Interp_Model Cfg_Model Cfg_Spec Cfg_Proofs Dom_Model Dom_Spec.
From Coq Require Import ZifyBool.

(* Positions in lists. *)
Notation fin := domtree_id.

Lemma fin_range l x : In x l -> 0 <= fin l x < Z.of_nat (length l).
Proof.
  induction l as [|y l IH]; cbn [fin length]; intro H; [destruct H|].
  destruct (Z.eqb_spec y x); [lia|].
  destruct H as [H|H]; [congruence|]. specialize (IH H). lia.
Qed.

Lemma fin_inj l x y : In x l -> In y l -> fin l x = fin l y -> x = y.
Proof.
  induction l as [|z l IH]; cbn [fin]; intros Hx Hy H; [destruct Hx|].
  destruct (Z.eqb_spec z x) as [E1|E1], (Z.eqb_spec z y) as [E2|E2].
  - congruence.
  - destruct Hy as [Hy|Hy]; [congruence|]. pose proof (fin_range l y Hy). lia.
  - destruct Hx as [Hx|Hx]; [congruence|]. pose proof (fin_range l x Hx). lia.
  - destruct Hx as [Hx|Hx], Hy as [Hy|Hy]; try congruence. auto.
Qed.

Lemma id_fin l x : In x l -> id_of l x = Z.of_nat (length l) - fin l x.
Proof.
  induction l as [|y l IH]; cbn [id_of fin length]; intro H; [destruct H|].
  destruct (Z.eqb_spec y x) as [E|E]; [lia|].
  destruct H as [H|H]; [congruence|]. rewrite (IH H).
  pose proof (fin_range l x H).
  destruct (Z.of_nat (length l) - fin l x) eqn:Q; lia.
Qed.

Lemma id_out l x : ~ In x l -> id_of l x = 0.
Proof.
  induction l as [|y l IH]; cbn [id_of]; intro H; [reflexivity|].
  destruct (Z.eqb_spec y x) as [E|E]; [subst; destruct H; left; reflexivity|].
  rewrite IH; [reflexivity|]. intro. apply H. right. assumption.
Qed.

Lemma id_pos l x : In x l <-> 0 < id_of l x.
Proof.
  split; intro H.
  - rewrite id_fin by exact H. pose proof (fin_range l x H). lia.
  - destruct (in_dec Z.eq_dec x l) as [I|I]; [exact I|]. rewrite (id_out l x I) in H. lia.
Qed.

Lemma id_inj l x y : In x l -> In y l -> id_of l x = id_of l y -> x = y.
Proof. intros Hx Hy. rewrite !id_fin by assumption. intro. apply (fin_inj l); [assumption..|lia]. Qed.

Lemma id_le l x : id_of l x <= Z.of_nat (length l).
Proof.
  destruct (in_dec Z.eq_dec x l) as [I|I].
  - rewrite id_fin by exact I. pose proof (fin_range l x I). lia.
  - rewrite id_out by exact I. lia.
Qed.

Lemma id_app l1 b l2 : NoDup (l1 ++ b :: l2) ->
  id_of (l1 ++ b :: l2) b = Z.of_nat (length l1) + 1 /\
  (forall x, In x l1 -> id_of (l1 ++ b :: l2) x <= Z.of_nat (length l1)) /\
  (forall x, In x l2 -> id_of (l1 ++ b :: l2) b < id_of (l1 ++ b :: l2) x).
Proof.
  induction l1 as [|y l1 IH]; intro ND; cbn [app] in *; inversion ND as [|? ? NI ND' E]; subst.
  - cbn [id_of length]. rewrite Z.eqb_refl. split; [lia|split].
    + intros x [].
    + intros x Hx. destruct (Z.eqb_spec b x) as [->|Q]; [contradiction|].
      pose proof (proj1 (id_pos l2 x) Hx). destruct (id_of l2 x) eqn:Q2; lia.
  - destruct (IH ND') as (A & B & C). cbn [id_of length].
    assert (y <> b) by (intros ->; apply NI, in_or_app; right; left; reflexivity).
    destruct (Z.eqb_spec y b) as [|_]; [contradiction|]. rewrite A.
    split; [|split].
    + destruct (Z.of_nat (length l1) + 1) eqn:Q; lia.
    + intros x Hx. destruct (Z.eqb_spec y x); [lia|]. destruct Hx as [Hx|Hx]; [contradiction|].
      specialize (B x Hx). destruct (id_of (l1 ++ b :: l2) x) eqn:Q; lia.
    + intros x Hx. destruct (Z.eqb_spec y x) as [->|].
      { destruct NI. apply in_or_app. right. right. exact Hx. }
      specialize (C x Hx). rewrite A in C.
      destruct (id_of (l1 ++ b :: l2) x) eqn:Q; [lia| |lia].
      destruct (Z.of_nat (length l1) + 1) eqn:Q3; lia.
Qed.

Lemma nodup_app_r {A} (l1 l2 : list A) : NoDup (l1 ++ l2) -> NoDup l2.
Proof. induction l1; cbn; intro H; [exact H|]. inversion H; auto. Qed.

(* --- Depth-first search --- *)
Section Dfs.
Variable entry : Z.
Variable succ pred : Z -> list Z.
Hypothesis edges : forall a b, In b (succ a) <-> In a (pred b).
Hypothesis no_entry : pred entry = [].

Lemma not_entry a b : In b (succ a) -> b <> entry.
Proof. intros H ->. apply edges in H. rewrite no_entry in H. destruct H. Qed.

Inductive anc (E : list (Z * Z)) : Z -> Z -> Prop :=
| anc_refl a : anc E a a
| anc_step a p b : anc E a p -> In (p, b) E -> anc E a b.

Lemma anc_mono E E' a b : incl E E' -> anc E a b -> anc E' a b.
Proof. intros I H. induction H; [apply anc_refl|]. eapply anc_step; eauto. Qed.

Notation gray work := (map (@fst Z (list Z)) work).

Fixpoint stk (E : list (Z * Z)) (w : list (Z * list Z)) : Prop :=
  match w with
  | [] => True
  | (b, _) :: w' => match w' with [] => b = entry | (p, _) :: _ => In (p, b) E end /\ stk E w'
  end.

Lemma stk_mono E E' w : incl E E' -> stk E w -> stk E' w.
Proof.
  intro I. induction w as [|(b, r) w IH]; cbn; [trivial|]. intros (A & B). split; [|auto].
  destruct w as [|(p, r') w']; auto.
Qed.

Lemma stk_anc E : forall w b r c, stk E ((b, r) :: w) -> In c (gray ((b, r) :: w)) -> anc E c b.
Proof.
  induction w as [|(p, r') w IH]; intros b r c S H.
  - destruct H as [<- |[]]. apply anc_refl.
  - destruct H as [<- |H]; [apply anc_refl|]. destruct S as (S1 & S2).
    eapply anc_step; [|exact S1]. exact (IH p r' c S2 H).
Qed.

Record inv (E : list (Z * Z)) (V P : list Z) (w : list (Z * list Z)) : Prop := {
  i_nodup : NoDup (gray w ++ P);
  i_seen : forall x, In x (gray w ++ P) <-> x = entry \/ In x V;
  i_stk : stk E w;
  i_done : forall b rest, In (b, rest) w -> exists dn, succ b = dn ++ rest /\ incl dn V;
  i_post : forall x c, In x P -> In c (succ x) -> In c V /\ (In c P /\ fin P c < fin P x \/ anc E c x);
  i_tree : forall p c, In (p, c) E -> In c (succ p) /\ In c V /\ In p (gray w ++ P) /\
             (In c P /\ (In p P -> fin P c < fin P p) \/
              exists w1 r r' w2, w = w1 ++ (c, r) :: (p, r') :: w2);
  i_par : forall x, In x V -> exists p, In (p, x) E;
  i_uniq : NoDup (map snd E) }.

Definition weight (l : list Z) : nat := fold_right (fun c n => S (length (succ c)) + n)%nat 0%nat l.
Definition unseen (V N : list Z) : list Z := filter (fun c => negb (mem_z c V)) N.
Definition todo (w : list (Z * list Z)) : nat := fold_right (fun x n => S (length (snd x)) + n)%nat 0%nat w.

Lemma unseen_add V N c : NoDup N -> In c N -> ~ In c V ->
  (weight (unseen V N) = S (length (succ c)) + weight (unseen (c :: V) N))%nat.
Proof.
  intros ND I NV. induction N as [|y N IH]; [destruct I|].
  inversion ND as [|? ? NI ND' E]; subst. unfold unseen in *. cbn [filter].
  assert (Q : forall x, mem_z x (c :: V) = (x =? c) || mem_z x V) by reflexivity.
  rewrite Q. destruct (Z.eqb_spec y c) as [-> |NE].
  - cbn [orb negb]. destruct (mem_z c V) eqn:M; [apply mem_z_In in M; contradiction|]. cbn [negb].
    cbn [weight fold_right]. f_equal. unfold weight. f_equal.
    clear - NI. induction N as [|z N IH]; [reflexivity|]. cbn [filter].
    change (mem_z z (c :: V)) with ((z =? c) || mem_z z V).
    destruct (Z.eqb_spec z c) as [->|]; [destruct NI; left; reflexivity|]. cbn [orb].
    destruct (negb (mem_z z V)); [f_equal|]; apply IH; intro; apply NI; right; assumption.
  - cbn [orb]. destruct I as [I|I]; [contradiction|]. specialize (IH ND' I).
    destruct (negb (mem_z y V)); [|exact IH]. cbn [weight fold_right] in *. unfold weight in IH. rewrite IH. lia.
Qed.

Lemma dfs_spec fuel : forall N E V P w, NoDup N -> incl V N ->
  (forall a b, In a (entry :: N) -> In b (succ a) -> In b N) ->
  inv E V P w -> (weight (unseen V N) + todo w < fuel)%nat ->
  exists E' V' P', dfs succ fuel w V P = CGood P' /\ inv E' V' P' [].
Proof.
  induction fuel as [|f IH]; intros N E V P w NN VN CL I F; [lia|].
  cbn [dfs]. destruct w as [|(b, [|c rest]) w].
  - exists E, V, P. split; [reflexivity|exact I].
  - (* finished *)
    destruct I as [i1 i2 i3 i4 i5 i6 i7 i8]. cbn [map fst app] in *.
    apply (IH N E V (b :: P) w NN VN CL); [|cbn [todo fold_right snd length] in F; unfold todo in *; lia].
    inversion i1 as [|? ? NI ND']; subst.
    assert (PM : forall x, In x (gray w ++ b :: P) <-> In x (b :: gray w ++ P)).
    { intro x. rewrite !in_app_iff. cbn [In]. rewrite in_app_iff. tauto. }
    assert (NIP : ~ In b P) by (intro; apply NI, in_or_app; right; assumption).
    assert (FO : forall x, In x P -> fin (b :: P) x = fin P x).
    { intros x Hx. cbn [fin]. destruct (Z.eqb_spec b x) as [->|]; [contradiction|reflexivity]. }
    assert (FB : fin (b :: P) b = Z.of_nat (length P)) by (cbn [fin]; rewrite Z.eqb_refl; reflexivity).
    constructor.
    + apply (NoDup_Add (Add_app b _ _)). split; [exact ND'|exact NI].
    + intro x. rewrite PM. apply i2.
    + exact (proj2 i3).
    + intros b' r' Hb. apply (i4 b' r'). right. exact Hb.
    + intros x c Hx Hc. destruct Hx as [<- |Hx].
      * destruct (i4 b [] (or_introl eq_refl)) as (dn & E1 & I1). rewrite app_nil_r in E1.
        assert (Hv : In c V) by (apply I1; rewrite <- E1; exact Hc). split; [exact Hv|].
        assert (In c (b :: gray w ++ P)) as Hg by (apply i2; right; exact Hv).
        destruct (in_dec Z.eq_dec c P) as [Hp|Hp].
        -- left. split; [right; exact Hp|]. rewrite (FO c Hp), FB. pose proof (fin_range P c Hp). lia.
        -- right. apply (stk_anc E w b [] c i3). cbn. destruct Hg as [Hg|Hg]; [left; exact Hg|right].
           apply in_app_or in Hg. destruct Hg; [assumption|contradiction].
      * destruct (i5 x c Hx Hc) as (Hv & [(Hp & Hl)|Ha]); (split; [exact Hv|]); [left|right; exact Ha].
        split; [right; exact Hp|]. rewrite !FO by assumption. exact Hl.
    + intros p c Hpc. destruct (i6 p c Hpc) as (A1 & A2 & A3 & A4).
      split; [exact A1|split; [exact A2|split; [apply PM; exact A3|]]].
      destruct A4 as [(Hp & Hl)|(w1 & r & r' & w2 & Hw)].
      * left. split; [right; exact Hp|]. rewrite (FO c Hp). intros [<- |Hpp]; [|rewrite FO by assumption; auto].
        rewrite FB. pose proof (fin_range P c Hp). lia.
      * destruct w1 as [|(x, xr) w1].
        -- injection Hw as -> _ Hw. left. split; [left; reflexivity|]. intros [->|Hpp].
           ++ destruct NI. rewrite Hw. left. reflexivity.
           ++ exfalso. rewrite Hw in ND'. cbn in ND'. inversion ND' as [|? ? Q ?]; subst. apply Q, in_or_app. right. exact Hpp.
        -- injection Hw as -> _ Hw. right. exists w1, r, r', w2. exact Hw.
    + exact i7.
    + exact i8.
  - (* a successor *)
    destruct I as [i1 i2 i3 i4 i5 i6 i7 i8]. cbn [map fst app] in *.
    assert (ADJ : forall p x, (exists w1 r r' w2, (b, c :: rest) :: w = w1 ++ (x, r) :: (p, r') :: w2) ->
              exists w1 r r' w2, (b, rest) :: w = w1 ++ (x, r) :: (p, r') :: w2).
    { intros p x (w1 & r & r' & w2 & Hw). destruct w1 as [|(y, yr) w1].
      - injection Hw as -> _ Hw. exists [], rest, r', w2. rewrite Hw. reflexivity.
      - injection Hw as -> _ Hw. exists ((y, rest) :: w1), r, r', w2. rewrite Hw. reflexivity. }
    destruct (i4 b (c :: rest) (or_introl eq_refl)) as (dn & E1 & I1).
    assert (Hcs : In c (succ b)) by (rewrite E1; apply in_or_app; right; left; reflexivity).
    pose proof (not_entry b c Hcs) as CNE.
    assert (BN : In b (entry :: N)).
    { assert (b = entry \/ In b V) as [->|Hb] by (apply i2; left; reflexivity); [left; reflexivity|right; auto]. }
    destruct (mem_z c V) eqn:M.
    + apply mem_z_In in M.
      apply (IH N E V P ((b, rest) :: w) NN VN CL); [|cbn [todo fold_right snd length] in *; unfold todo in *; lia].
      constructor; cbn [map fst app].
      * exact i1.
      * exact i2.
      * destruct i3 as (S1 & S2). split; [exact S1|exact S2].
      * intros b' r' [Hb|Hb]; [|apply (i4 b' r'); right; exact Hb].
        injection Hb as <- <-. exists (dn ++ [c]). split; [rewrite <- app_assoc; exact E1|].
        intros x Hx. apply in_app_or in Hx. destruct Hx as [Hx|[<- |[]]]; [apply I1; exact Hx|exact M].
      * exact i5.
      * intros p x Hpx. destruct (i6 p x Hpx) as (A1 & A2 & A3 & A4).
        split; [exact A1|split; [exact A2|split; [exact A3|]]]. destruct A4 as [A4|A4]; [left; exact A4|right; auto].
      * exact i7.
      * exact i8.
    + assert (NV : ~ In c V) by (intro Q; apply mem_z_In in Q; congruence).
      assert (NG : ~ In c (b :: gray w ++ P)).
      { intro Q. apply i2 in Q. destruct Q; contradiction. }
      assert (CN : In c N) by (apply (CL b c BN Hcs)).
      pose proof (unseen_add V N c NN CN NV) as WT.
      set (E' := (b, c) :: E).
      assert (IE : incl E E') by (intros x Hx; right; exact Hx).
      assert (VN' : incl (c :: V) N) by (intros x [<- |Hx]; auto).
      assert (DN : forall b' r', In (b', r') ((b, rest) :: w) -> exists dn', succ b' = dn' ++ r' /\ incl dn' (c :: V)).
      { intros b' r' [Hb|Hb].
        - injection Hb as <- <-. exists (dn ++ [c]). split; [rewrite <- app_assoc; exact E1|].
          intros x Hx. apply in_app_or in Hx. destruct Hx as [Hx|[<- |[]]]; [right; apply I1; exact Hx|left; reflexivity].
        - destruct (i4 b' r' (or_intror Hb)) as (dn' & Q1 & Q2). exists dn'. split; [exact Q1|].
          intros x Hx. right. auto. }
      assert (S3 : stk E' ((b, rest) :: w)).
      { apply (stk_mono E); [exact IE|]. destruct i3 as (S1 & S2). split; assumption. }
      assert (U8 : NoDup (map snd E')).
      { unfold E'. cbn [map snd]. constructor; [|exact i8]. intro Q. apply in_map_iff in Q.
        destruct Q as ((p & x) & Q1 & Q2). cbn in Q1. subst x. destruct (i6 p c Q2) as (_ & Q3 & _). contradiction. }
      assert (P7 : forall x, In x (c :: V) -> exists p, In (p, x) E').
      { intros x [<- |Hx]; [exists b; left; reflexivity|]. destruct (i7 x Hx) as (p & Hp). exists p. right. exact Hp. }
      destruct (succ c) as [|s1 ss] eqn:SC.
      * (* leaf *)
        apply (IH N E' (c :: V) (c :: P) ((b, rest) :: w) NN VN' CL);
          [|cbn [todo fold_right snd length] in *; unfold todo in *; lia].
        assert (FO : forall x, In x P -> fin (c :: P) x = fin P x).
        { intros x Hx. cbn [fin]. destruct (Z.eqb_spec c x) as [->|]; [|reflexivity].
          destruct NG. right. apply in_or_app. right. exact Hx. }
        assert (PM : forall x, In x (gray ((b, rest) :: w) ++ c :: P) <-> x = c \/ In x (b :: gray w ++ P)).
        { intro x. cbn [map fst app]. cbn [In]. rewrite !in_app_iff. cbn [In].
          split; intros; repeat match goal with H : _ \/ _ |- _ => destruct H end; subst; tauto. }
        constructor.
        -- apply (NoDup_Add (Add_app c (gray ((b, rest) :: w)) P)). split; [exact i1|exact NG].
        -- intro x. rewrite PM. rewrite i2. cbn [In]. split; intros; repeat match goal with H : _ \/ _ |- _ => destruct H end; subst; tauto.
        -- exact S3.
        -- exact DN.
        -- intros x y Hx Hy. destruct Hx as [<- |Hx]; [rewrite SC in Hy; destruct Hy|].
           destruct (i5 x y Hx Hy) as (Q1 & [(Q2 & Q3)|Q2]); (split; [right; exact Q1|]).
           ++ left. split; [right; exact Q2|]. rewrite !FO by assumption. exact Q3.
           ++ right. apply (anc_mono E); assumption.
        -- intros p x [Hpx|Hpx].
           ++ injection Hpx as <- <-. split; [exact Hcs|]. split; [left; reflexivity|]. split; [left; reflexivity|].
              left. split; [left; reflexivity|]. intros [->|Q]; [destruct NG; left; reflexivity|].
              exfalso. inversion i1 as [|? ? NI ?]; subst. apply NI, in_or_app. right. exact Q.
           ++ destruct (i6 p x Hpx) as (A1 & A2 & A3 & A4).
              split; [exact A1|split; [right; exact A2|split; [apply PM; right; exact A3|]]].
              destruct A4 as [(Q1 & Q2)|A4]; [left|right; auto].
              split; [right; exact Q1|]. rewrite (FO x Q1).
              intros [->|Q]; [contradiction|]. rewrite (FO p Q). auto.
        -- exact P7.
        -- exact U8.
      * apply (IH N E' (c :: V) P ((c, s1 :: ss) :: (b, rest) :: w) NN VN' CL);
          [|cbn [todo fold_right snd length] in *; unfold todo in *; lia].
        assert (PM : forall x, In x (gray ((c, s1 :: ss) :: (b, rest) :: w) ++ P) <-> x = c \/ In x (b :: gray w ++ P)).
        { intro x. cbn [map fst app In]. split; intros [Q|Q]; auto. }
        constructor.
        -- cbn [map fst app]. constructor; [exact NG|exact i1].
        -- intro x. rewrite PM, i2. cbn [In]. split; intros; repeat match goal with H : _ \/ _ |- _ => destruct H end; subst; tauto.
        -- split; [left; reflexivity|exact S3].
        -- intros b' r' [Hb|Hb]; [|apply DN; exact Hb]. injection Hb as <- <-. exists []. split; [exact SC|intros x []].
        -- intros x y Hx Hy. destruct (i5 x y Hx Hy) as (Q1 & [(Q2 & Q3)|Q2]); (split; [right; exact Q1|]).
           ++ left. split; assumption.
           ++ right. apply (anc_mono E); assumption.
        -- intros p x [Hpx|Hpx].
           ++ injection Hpx as <- <-. split; [exact Hcs|]. split; [left; reflexivity|]. split; [right; left; reflexivity|].
              right. exists [], (s1 :: ss), rest, w. reflexivity.
           ++ destruct (i6 p x Hpx) as (A1 & A2 & A3 & A4).
              split; [exact A1|split; [right; exact A2|split; [apply PM; right; exact A3|]]].
              destruct A4 as [A4|A4]; [left; exact A4|right].
              destruct (ADJ p x A4) as (w1 & r & r' & w2 & Hw). exists ((c, s1 :: ss) :: w1), r, r', w2. rewrite Hw. reflexivity.
        -- exact P7.
        -- exact U8.
Qed.

(* Ancestors along a parent map. *)
Inductive ancp (par : Z -> Z) : Z -> Z -> Prop :=
| ancp_refl a : ancp par a a
| ancp_step a b : b <> entry -> ancp par a (par b) -> ancp par a b.

Record ordered (P : list Z) (par : Z -> Z) : Prop := {
  o_nodup : NoDup P;
  o_reach : forall b, In b P <-> reachable entry succ b;
  o_par : forall b, In b P -> b <> entry ->
            In (par b) P /\ In b (succ (par b)) /\ id_of P (par b) < id_of P b;
  o_edge : forall p b, In p P -> In b (succ p) -> id_of P p < id_of P b \/ ancp par b p }.

Definition lookup_par (E : list (Z * Z)) (b : Z) : Z :=
  match find (fun e => snd e =? b) E with Some e => fst e | None => 0 end.

Lemma lookup_in E p b : NoDup (map snd E) -> In (p, b) E -> lookup_par E b = p.
Proof.
  unfold lookup_par. induction E as [|(p', b') E IH]; intros ND H; [destruct H|].
  cbn [find snd map] in *. inversion ND as [|? ? NI ND']; subst.
  destruct H as [H|H].
  - injection H as -> ->. rewrite Z.eqb_refl. reflexivity.
  - destruct (Z.eqb_spec b' b) as [->|]; [|auto]. destruct NI. apply in_map_iff. exists (p, b). auto.
Qed.

Lemma ordering_spec : (exists N, In entry N /\ forall a b, In a N -> In b (succ a) -> In b N) ->
  exists fuel0, forall fuel, (fuel0 <= fuel)%nat ->
  exists P par, compute_ordering entry succ fuel = CGood P /\ ordered P par.
Proof.
  intros (N0 & EN & CL0). set (N := nodup Z.eq_dec N0).
  assert (NI : forall x, In x N <-> In x N0) by (intro; apply nodup_In).
  exists (S (weight (unseen [] N) + todo [(entry, succ entry)])). intros fuel F.
  assert (NE : forall a b, In b (succ a) -> b <> entry) by exact not_entry.
  destruct (dfs_spec fuel N [] [] [] [(entry, succ entry)]) as (E & V & P & D & I).
  - apply NoDup_nodup.
  - intros x [].
  - intros a b [<- |Ha] Hb; apply NI; [apply (CL0 entry)|apply (CL0 a)]; auto. apply NI. exact Ha.
  - constructor; cbn [map fst app].
    + constructor; [intros []|constructor].
    + intro x. cbn. intuition.
    + split; [reflexivity|exact I].
    + intros b r [H|[]]. injection H as <- <-. exists []. split; [reflexivity|intros x []].
    + intros x c [].
    + intros p c [].
    + intros x [].
    + constructor.
  - lia.
  - destruct I as [i1 i2 i3 i4 i5 i6 i7 i8]. cbn [map app] in *.
    exists P, (lookup_par E). split; [exact D|].
    assert (PA : forall b, In b P -> b <> entry ->
              In (lookup_par E b) P /\ In b (succ (lookup_par E b)) /\ id_of P (lookup_par E b) < id_of P b).
    { intros b Hb NB. assert (In b V) as Hv by (apply i2 in Hb; destruct Hb; [contradiction|assumption]).
      destruct (i7 b Hv) as (p & Hp). rewrite (lookup_in E p b i8 Hp).
      destruct (i6 p b Hp) as (A1 & A2 & A3 & [(A4 & A5)|(w1 & r & r' & w2 & Q)]); [|destruct w1; discriminate].
      split; [exact A3|]. split; [exact A1|]. rewrite !id_fin by assumption. specialize (A5 A3). lia. }
    assert (EI : In entry P) by (apply i2; left; reflexivity).
    constructor.
    + exact i1.
    + intro b. split.
      * intro Hb. remember (Z.to_nat (id_of P b)) as k eqn:K. revert b Hb K.
        induction k as [k IHk] using lt_wf_ind. intros b Hb K.
        destruct (Z.eq_dec b entry) as [->|NB]; [exists [entry]; constructor|].
        destruct (PA b Hb NB) as (Q1 & Q2 & Q3).
        pose proof (proj1 (id_pos P _) Q1).
        destruct (IHk (Z.to_nat (id_of P (lookup_par E b))) ltac:(lia) (lookup_par E b) Q1 eq_refl) as (l & Hl).
        exists (b :: l). econstructor; eassumption.
      * intros (l & Hl). induction Hl as [|l b c Hl IHl Hc]; [exact EI|].
        apply i2. right. apply (i5 b c IHl Hc).
    + exact PA.
    + intros p b Hp Hb. destruct (i5 p b Hp Hb) as (Hv & [(Q1 & Q2)|Q]).
      * left. rewrite !id_fin by assumption. lia.
      * right. clear - Q i6 i8 NE. induction Q as [a|a p b Q IH Hp]; [apply ancp_refl|].
        apply ancp_step.
        -- destruct (i6 p b Hp) as (A1 & _). exact (NE p b A1).
        -- rewrite (lookup_in E p b i8 Hp). exact IH.
Qed.

End Dfs.
