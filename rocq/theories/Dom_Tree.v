(* The dominator tree, its numbering, and the loop headers. *)
From Verif Require Import Base Base_Proofs Rt_Model Array_Model Interp_Model Cfg_Model Cfg_Spec Cfg_Proofs Dom_Model Dom_Spec Dom_Proofs Dom_Idom.
From Coq Require Import ZifyBool.

Definition sum (f : Z -> Z) (l : list Z) : Z := fold_right (fun b n => f b + n) 0 l.

Lemma sum_app f l1 l2 : sum f (l1 ++ l2) = sum f l1 + sum f l2.
Proof. induction l1; cbn; [reflexivity|]. unfold sum in *. lia. Qed.

Lemma sum_rev f l : sum f (rev l) = sum f l.
Proof. induction l as [|x l IH]; [reflexivity|]. cbn [rev]. rewrite sum_app, IH. cbn. unfold sum. lia. Qed.

Section Tree.
Variable entry : Z.
Variable succ pred : Z -> list Z.
Hypothesis edges : forall a b, In b (succ a) <-> In a (pred b).
Hypothesis no_entry : pred entry = [].
Variable rpo : list Z.
Variable par : Z -> Z.
Hypothesis O : ordered entry succ rpo par.
Variable m : idoms.
Hypothesis X : fixed entry succ pred rpo par m.
Notation id := (id_of rpo).
Notation dom := (doms entry succ).

Let ND : NoDup rpo := o_nodup _ _ _ _ O.
Let G := proj1 X.
Let F := proj1 (proj2 X).

Definition child (u b : Z) : bool := match m b with Some d => (d =? u) && negb (b =? d) | None => false end.

Lemma child_spec u b : child u b = true <-> m b = Some u /\ b <> u.
Proof.
  unfold child. destruct (m b) as [d|]; [|split; [discriminate|intros (Q & _); discriminate]].
  rewrite andb_true_iff, negb_true_iff, Z.eqb_eq, Z.eqb_neq. split.
  - intros (-> & Q). auto.
  - intros (Q & W). injection Q as ->. auto.
Qed.

Lemma child_id u b : child u b = true -> In b rpo /\ In u rpo /\ id u < id b /\ b <> entry.
Proof.
  intro H. apply child_spec in H. destruct H as (H & N).
  destruct (fixed_idom entry succ pred edges no_entry rpo par O m b u X H) as (A & B & C & [(-> & ->)|(D & _ & E)]); [congruence|].
  auto.
Qed.

Lemma link_tree_spec : forall bs pr kids num, rev rpo = pr ++ bs ->
  exists kids' num', link_tree m bs kids num = CGood (kids', num') /\
    (forall u, kids' u = kids u ++ filter (child u) bs) /\
    (forall u, num' u = num u + sum num' (filter (child u) bs)).
Proof.
  induction bs as [|b rest IH]; intros pr kids num E.
  { exists kids, num. split; [reflexivity|]. cbn. split; intro u; [rewrite app_nil_r; reflexivity|lia]. }
  assert (Hb : In b rpo) by (apply in_rev; rewrite E; apply in_or_app; right; left; reflexivity).
  assert (E' : rev rpo = (pr ++ [b]) ++ rest) by (rewrite <- app_assoc; exact E).
  assert (LOW : forall x, In x rest -> id x < id b).
  { intros x Hx. assert (RQ : rpo = rev rest ++ b :: rev pr).
    { rewrite <- (rev_involutive rpo), E, rev_app_distr. cbn [rev]. rewrite <- app_assoc. reflexivity. }
    assert (ND' := ND). rewrite RQ in ND'. pose proof (id_app (rev rest) b (rev pr) ND') as (I1 & I2 & I3).
    rewrite <- RQ in I1, I2, I3. specialize (I2 x ltac:(apply -> in_rev; exact Hx)). lia. }
  assert (NOB : filter (child b) rest = []).
  { assert (Q : forall x, In x rest -> child b x = false).
    { intros x Hx. destruct (child b x) eqn:C; [|reflexivity]. apply child_id in C. specialize (LOW x Hx). lia. }
    revert Q. clear. induction rest as [|x rest IH]; intro Q; [reflexivity|]. cbn [filter].
    rewrite (Q x (or_introl eq_refl)). apply IH. intros y Hy. apply Q. right. exact Hy. }
  cbn [link_tree]. destruct (m b) as [d|] eqn:MB; [|destruct (F b Hb MB)].
  destruct (Z.eqb_spec b d) as [<- |NE].
  - destruct (IH _ kids num E') as (k & n & A & B & C). exists k, n. split; [exact A|].
    assert (Q : forall u, child u b = false).
    { intro u. destruct (child u b) eqn:Q; [|reflexivity]. apply child_spec in Q. destruct Q as (Q1 & Q2). congruence. }
    split; intro u; cbn [filter]; rewrite Q; auto.
  - destruct (IH _ (upd kids d (kids d ++ [b])) (upd num d (num d + num b)) E') as (k & n & A & B & C).
    exists k, n. split; [exact A|].
    assert (Q : forall u, child u b = (d =? u)).
    { intro u. unfold child. rewrite MB. destruct (Z.eqb_spec b d); [contradiction|]. cbn. apply andb_true_r. }
    assert (NB : n b = num b).
    { rewrite C, NOB. unfold upd. destruct (Z.eqb_spec b d); [contradiction|]. cbn. lia. }
    split; intro u; cbn [filter]; rewrite Q.
    + rewrite B. unfold upd. rewrite (Z.eqb_sym u d). destruct (Z.eqb_spec d u) as [->|]; [|reflexivity].
      rewrite <- app_assoc. reflexivity.
    + rewrite C. unfold upd. rewrite (Z.eqb_sym u d). destruct (Z.eqb_spec d u) as [->|]; [|reflexivity].
      cbn [sum fold_right]. unfold sum. rewrite NB. lia.
Qed.

Definition kids (u : Z) : list Z := filter (child u) (rev rpo).
Variable num : Z -> Z.
Hypothesis NUM : forall u, num u = 1 + sum num (kids u).

Lemma kids_in u k : In k (kids u) <-> child u k = true.
Proof.
  unfold kids. rewrite filter_In. split; [tauto|]. intro H. split; [|exact H].
  apply -> in_rev. apply (child_id u k H).
Qed.

Lemma kids_nodup u : NoDup (kids u).
Proof. apply NoDup_filter. apply NoDup_rev. exact ND. Qed.

(* The tree below [u] in pre-order, as the walk meets it. *)
Fixpoint sub (n : nat) (u : Z) : list Z :=
  match n with 0%nat => [] | S n' => u :: flat_map (sub n') (rev (kids u)) end.

Definition deep (u : Z) : nat := Z.to_nat (Z.of_nat (length rpo) - id u).

Lemma deep_kid u k : In k (kids u) -> (deep k < deep u)%nat.
Proof. intro H. apply kids_in, child_id in H. unfold deep. pose proof (id_le rpo k). lia. Qed.

Lemma flat_map_ext_in {A B} (f g : A -> list B) l : (forall x, In x l -> f x = g x) -> flat_map f l = flat_map g l.
Proof.
  induction l as [|x l IH]; intro H; [reflexivity|]. cbn. rewrite (H x (or_introl eq_refl)), IH; [reflexivity|].
  intros y Hy. apply H. right. exact Hy.
Qed.

Lemma sub_stable : forall n n' u, (deep u < n)%nat -> (deep u < n')%nat -> sub n u = sub n' u.
Proof.
  induction n as [|n IH]; intros n' u A B; [lia|]. destruct n' as [|n']; [lia|]. cbn [sub]. f_equal.
  apply flat_map_ext_in. intros k Hk. apply in_rev in Hk. pose proof (deep_kid u k Hk). apply IH; lia.
Qed.

Definition preord (u : Z) : list Z := sub (S (deep u)) u.

Lemma pre_eq u : preord u = u :: flat_map preord (rev (kids u)).
Proof.
  unfold preord at 1. cbn [sub]. f_equal. apply flat_map_ext_in. intros k Hk. apply in_rev in Hk.
  pose proof (deep_kid u k Hk). apply sub_stable; lia.
Qed.

Lemma pre_ind (P : Z -> Prop) : (forall u, (forall k, In k (kids u) -> P k) -> P u) -> forall u, P u.
Proof.
  intros H u. remember (deep u) as n eqn:N. revert u N. induction n as [n IH] using lt_wf_ind.
  intros u ->. apply H. intros k Hk. apply (IH (deep k)); [apply deep_kid; exact Hk|reflexivity].
Qed.

Lemma pre_len u : Z.of_nat (length (preord u)) = num u.
Proof.
  induction u as [u IH] using pre_ind. rewrite pre_eq, NUM, <- sum_rev. cbn [length].
  assert (Q : forall l, (forall k, In k l -> In k (kids u)) -> Z.of_nat (length (flat_map preord l)) = sum num l).
  { induction l as [|k l IHl]; intro H; [reflexivity|]. cbn [flat_map sum fold_right]. rewrite app_length, Nat2Z.inj_add, (IH k).
    - unfold sum in IHl. rewrite IHl; [reflexivity|]. intros x Hx. apply H. right. exact Hx.
    - apply H. left. reflexivity. }
  rewrite <- Q; [lia|]. intros k Hk. apply in_rev. exact Hk.
Qed.

Lemma pre_in u : In u rpo -> forall b, In b (preord u) <-> In b rpo /\ ch m b u.
Proof.
  induction u as [u IH] using pre_ind. intros Hu b. rewrite pre_eq. cbn [In]. rewrite in_flat_map. split.
  - intros [<- |(k & Hk & Hb)]; [split; [exact Hu|apply ch_refl]|]. apply in_rev in Hk.
    assert (Q := Hk). apply kids_in in Q. pose proof (child_id u k Q) as (Ik & _).
    apply (IH k Hk Ik) in Hb. destruct Hb as (Hb & C). split; [exact Hb|]. apply (ch_trans m b k u C).
    apply child_spec in Q. eapply ch_step; [apply Q|apply ch_refl].
  - intros (Hb & C). induction C as [y|y x u E C IHc].
    + left. reflexivity.
    + destruct (fixed_idom entry succ pred edges no_entry rpo par O m y x X E) as (Iy & Ix & _ & [(-> & ->)|(NY & _ & L)]).
      { apply IHc; assumption. }
      destruct (IHc IH Hu Ix) as [->|(k & Hk & Hx)].
      * right. assert (Hy : In y (kids x)) by (apply kids_in, child_spec; split; [exact E|intros ->; lia]).
        exists y. split; [apply -> in_rev; exact Hy|]. apply (IH y Hy Iy). split; [exact Iy|apply ch_refl].
      * right. exists k. split; [exact Hk|]. apply in_rev in Hk.
        assert (Q := Hk). apply kids_in in Q. pose proof (child_id u k Q) as (Ik & _).
        apply (IH k Hk Ik). apply (IH k Hk Ik) in Hx. split; [exact Iy|]. eapply ch_step; [exact E|apply Hx].
Qed.

Lemma ch_linear x a b : ch m x a -> ch m x b -> ch m a b \/ ch m b a.
Proof.
  intros A. revert b. induction A as [y|y z a E A IH]; intros b B; [left; exact B|].
  destruct (ch_inv m y b B) as [->|(w & W1 & W2)].
  - right. eapply ch_step; eassumption.
  - rewrite E in W1. injection W1 as <-. auto.
Qed.

Lemma kids_apart u k1 k2 x : In k1 (kids u) -> In k2 (kids u) -> ch m x k1 -> ch m x k2 -> k1 = k2.
Proof.
  assert (H : forall k1 k2, In k1 (kids u) -> In k2 (kids u) -> ch m k1 k2 -> k1 = k2).
  { intros a b Ha Hb C. apply kids_in in Ha, Hb. pose proof (child_id u a Ha). pose proof (child_id u b Hb).
    apply child_spec in Ha, Hb. destruct (ch_inv m a b C) as [->|(w & W1 & W2)]; [reflexivity|].
    destruct Ha as (Ha & _). rewrite Ha in W1. injection W1 as <-.
    pose proof (ch_id entry succ rpo par m u b G W2). lia. }
  intros A B C D. destruct (ch_linear x k1 k2 C D) as [Q|Q]; [auto|symmetry; auto].
Qed.

Lemma nodup_flat {A} (f : Z -> list A) l : NoDup l -> (forall k, In k l -> NoDup (f k)) ->
  (forall k1 k2 x, In k1 l -> In k2 l -> In x (f k1) -> In x (f k2) -> k1 = k2) -> NoDup (flat_map f l).
Proof.
  clear. induction l as [|k l IH]; intros N S D; [constructor|]. cbn. inversion N as [|? ? NI N']; subst.
  assert (IH' : NoDup (flat_map f l)).
  { apply IH; [exact N'| |]; intros; [apply S; right; assumption|].
    apply (D k1 k2 x); try assumption; right; assumption. }
  assert (DJ : forall x, In x (f k) -> ~ In x (flat_map f l)).
  { intros x Hx Q. apply in_flat_map in Q. destruct Q as (k' & K1 & K2).
    assert (k = k') by (apply (D k k' x); [left; reflexivity|right; exact K1|exact Hx|exact K2]). subst. contradiction. }
  specialize (S k (or_introl eq_refl)). revert S DJ. generalize (f k). intro l'.
  induction l' as [|y l' IHl]; intros S DJ; [exact IH'|]. cbn. inversion S as [|? ? NY S']; subst. constructor.
  - intro Q. apply in_app_or in Q. destruct Q as [Q|Q]; [contradiction|]. exact (DJ y (or_introl eq_refl) Q).
  - apply IHl; [exact S'|]. intros x Hx. apply DJ. right. exact Hx.
Qed.

Lemma pre_nodup u : In u rpo -> NoDup (preord u).
Proof.
  induction u as [u IH] using pre_ind. intro Hu. rewrite pre_eq.
  assert (KI : forall k, In k (rev (kids u)) -> In k (kids u) /\ In k rpo /\ id u < id k).
  { intros k Hk. apply in_rev in Hk. split; [exact Hk|]. apply kids_in, child_id in Hk. tauto. }
  constructor.
  - rewrite in_flat_map. intros (k & Hk & Hx). destruct (KI k Hk) as (K1 & K2 & K3).
    apply (pre_in k K2) in Hx. pose proof (ch_id entry succ rpo par m u k G (proj2 Hx)). lia.
  - apply nodup_flat.
    + apply NoDup_rev, kids_nodup.
    + intros k Hk. destruct (KI k Hk) as (K1 & K2 & K3). apply (IH k K1 K2).
    + intros k1 k2 x H1 H2 P1 P2. destruct (KI k1 H1) as (A1 & A2 & _). destruct (KI k2 H2) as (B1 & B2 & _).
      apply (pre_in k1 A2) in P1. apply (pre_in k2 B2) in P2. exact (kids_apart u k1 k2 x A1 B1 (proj2 P1) (proj2 P2)).
Qed.

Lemma tree_order_spec fuel : forall work order, (length (flat_map preord work) < fuel)%nat ->
  tree_order fuel kids work order = CGood (rev (flat_map preord work) ++ order).
Proof.
  induction fuel as [|f IH]; intros work order L; [lia|]. cbn [tree_order]. destruct work as [|b w]; [reflexivity|].
  cbn [flat_map] in *. rewrite pre_eq in *. cbn [app length] in L.
  rewrite IH; rewrite flat_map_app; [|lia].
  f_equal. cbn [app rev]. rewrite <- app_assoc. reflexivity.
Qed.

Lemma fin_app_r l1 l2 x : In x l2 -> NoDup (l1 ++ l2) -> fin (l1 ++ l2) x = fin l2 x.
Proof.
  induction l1 as [|y l1 IH]; intros H N; [reflexivity|]. cbn [app fin]. inversion N as [|? ? NI N']; subst.
  destruct (Z.eqb_spec y x) as [->|]; [|auto]. destruct NI. apply in_or_app. right. exact H.
Qed.

Lemma fin_app_l l1 l2 x : In x l1 -> Z.of_nat (length l2) <= fin (l1 ++ l2) x < Z.of_nat (length l1) + Z.of_nat (length l2).
Proof.
  induction l1 as [|y l1 IH]; intros H; [destruct H|]. cbn [app fin length].
  destruct (Z.eqb_spec y x) as [->|]; [rewrite app_length; lia|]. destruct H as [H|H]; [contradiction|]. specialize (IH H). lia.
Qed.

(* Every subtree is a contiguous range of the pre-order. *)
Lemma pre_part u r : ch m u r -> In u rpo -> exists A B, preord r = A ++ preord u ++ B.
Proof.
  intro C. induction C as [y|y x r E C IH]; intro Hy.
  - exists [], []. rewrite app_nil_r. reflexivity.
  - destruct (fixed_idom entry succ pred edges no_entry rpo par O m y x X E) as (Iy & Ix & _ & [(Q1 & Q2)|(NY & _ & L)]).
    { assert (W : x = y) by congruence. rewrite W in IH. exact (IH Hy). }
    destruct (IH Ix) as (A & B & Q).
    assert (Hk : In y (rev (kids x))) by (apply -> in_rev; apply kids_in, child_spec; split; [exact E|intros ->; lia]).
    apply in_split in Hk. destruct Hk as (k1 & k2 & Hk). rewrite (pre_eq x), Hk in Q. rewrite flat_map_app in Q. cbn [flat_map] in Q.
    exists (A ++ x :: flat_map preord k1), (flat_map preord k2 ++ B). rewrite Q. repeat (rewrite <- app_assoc; cbn [app]). reflexivity.
Qed.

Lemma pre_range u : In u rpo -> exists A B, preord entry = A ++ preord u ++ B.
Proof.
  intro Hu. apply pre_part; [|exact Hu].
  apply (fixed_doms entry succ pred edges no_entry rpo par O m u entry X Hu).
  split; [apply (o_reach _ _ _ _ O); exact Hu|]. intros l P. clear - P. induction P; [left; reflexivity|right; assumption].
Qed.

Lemma dominates_spec a b : In a rpo -> In b rpo -> dominates (rev (preord entry)) num a b = true <-> dom a b.
Proof.
  intros Ha Hb. rewrite <- (fixed_doms entry succ pred edges no_entry rpo par O m b a X Hb).
  pose proof (entry_in entry succ rpo par O) as Ie.
  destruct (pre_range a Ha) as (A & B & Q). pose proof (pre_nodup entry Ie) as N. pose proof (pre_len a) as LN.
  assert (N' : NoDup (rev (preord entry))) by (apply NoDup_rev; exact N).
  assert (R : rev (preord entry) = rev B ++ rev (preord a) ++ rev A).
  { rewrite Q, !rev_app_distr, <- app_assoc. reflexivity. }
  assert (Ib : In b (preord entry)).
  { apply (pre_in entry Ie). split; [exact Hb|].
    apply (fixed_doms entry succ pred edges no_entry rpo par O m b entry X Hb).
    split; [apply (o_reach _ _ _ _ O); exact Hb|]. intros l P. clear - P. induction P; [left; reflexivity|right; assumption]. }
  assert (FA : fin (rev (preord entry)) a = Z.of_nat (length A)).
  { rewrite R, fin_app_r.
    - rewrite pre_eq. cbn [rev]. rewrite <- app_assoc, fin_app_r.
      + cbn [app fin]. rewrite Z.eqb_refl, rev_length. reflexivity.
      + left. reflexivity.
      + rewrite R in N'. apply nodup_app_r in N'. rewrite pre_eq in N'. cbn [rev] in N'. rewrite <- app_assoc in N'. exact N'.
    - apply in_or_app. left. apply -> in_rev. rewrite pre_eq. left. reflexivity.
    - rewrite <- R. exact N'. }
  unfold dominates. rewrite andb_true_iff, Z.leb_le, Z.ltb_lt, FA, <- LN. split.
  - intros (L1 & L2). rewrite Q in Ib. apply in_app_or in Ib. destruct Ib as [Ib|Ib].
    + exfalso. rewrite R, app_assoc, fin_app_r in L1.
      * pose proof (fin_range (rev A) b ltac:(apply -> in_rev; exact Ib)) as W. rewrite rev_length in W. lia.
      * apply -> in_rev. exact Ib.
      * rewrite <- app_assoc, <- R. exact N'.
    + apply in_app_or in Ib. destruct Ib as [Ib|Ib]; [apply (pre_in a Ha); exact Ib|].
      exfalso. rewrite R in L2. pose proof (fin_app_l (rev B) (rev (preord a) ++ rev A) b ltac:(apply -> in_rev; exact Ib)) as W.
      rewrite app_length, !rev_length in W. lia.
  - intro C. assert (Ip : In b (preord a)) by (apply (pre_in a Ha); split; assumption).
    rewrite R, fin_app_r.
    + pose proof (fin_app_l (rev (preord a)) (rev A) b ltac:(apply -> in_rev; exact Ip)) as W. rewrite !rev_length in W. lia.
    + apply in_or_app. left. apply -> in_rev. exact Ip.
    + rewrite <- R. exact N'.
Qed.

(* --- Loop headers --- *)
Variable order : list Z.
Hypothesis ORD : forall a b, In a rpo -> In b rpo -> dominates order num a b = true <-> dom a b.

Lemma succ_in b c : In b rpo -> In c (succ b) -> In c rpo.
Proof.
  intros Hb Hc. apply (o_reach _ _ _ _ O) in Hb. destruct Hb as (l & Hl). apply (o_reach _ _ _ _ O).
  exists (c :: l). econstructor; eassumption.
Qed.

Lemma dom_id a b : In b rpo -> dom a b -> id a <= id b.
Proof.
  intros Hb D. apply (fixed_doms entry succ pred edges no_entry rpo par O m b a X Hb) in D.
  exact (ch_id entry succ rpo par m b a G D).
Qed.

Lemma headers_of_spec b : In b rpo -> forall cs hs, incl cs (succ b) ->
  match headers_of rpo order num b cs hs with
  | Some hs' => (forall h, In h hs' <-> In h hs \/ In h cs /\ dom h b) /\ (forall c, In c cs -> id b < id c \/ dom c b)
  | None => exists c, In c cs /\ id c <= id b /\ ~ dom c b
  end.
Proof.
  intros Hb. induction cs as [|c cs IH]; intros hs I; cbn [headers_of].
  - split; [intro h; cbn; tauto|intros c []].
  - assert (Hc : In c rpo) by (apply (succ_in b c Hb), I; left; reflexivity).
    assert (I' : incl cs (succ b)) by (intros x Hx; apply I; right; exact Hx).
    destruct (Z.leb_spec (id c) (id b)) as [L|L].
    + destruct (dominates order num c b) eqn:D.
      * apply (ORD c b Hc Hb) in D. specialize (IH (c :: hs) I').
        destruct (headers_of rpo order num b cs (c :: hs)) as [hs'|].
        -- destruct IH as (A & B). split.
           ++ intro h. rewrite A. cbn [In]. split.
              ** intros [[<- |Q]|(Q1 & Q2)]; auto.
              ** intros [Q|([<- |Q1] & Q2)]; auto.
           ++ intros x [<- |Hx]; auto.
        -- destruct IH as (x & X1 & X2). exists x. split; [right; exact X1|exact X2].
      * exists c. split; [left; reflexivity|]. split; [exact L|]. intro Q. apply (ORD c b Hc Hb) in Q. congruence.
    + specialize (IH hs I'). destruct (headers_of rpo order num b cs hs) as [hs'|].
      * destruct IH as (A & B). split.
        -- intro h. rewrite A. cbn [In]. split; [tauto|]. intros [Q|([<- |Q1] & Q2)]; auto.
           pose proof (dom_id c b Hb Q2). lia.
        -- intros x [<- |Hx]; auto.
      * destruct IH as (x & X1 & X2). exists x. split; [right; exact X1|exact X2].
Qed.

Lemma loop_headers_spec : forall bs hs, incl bs rpo ->
  match loop_headers succ rpo order num bs hs with
  | Some hs' => (forall h, In h hs' <-> In h hs \/ exists b, In b bs /\ In h (succ b) /\ dom h b) /\
                (forall b c, In b bs -> In c (succ b) -> id b < id c \/ dom c b)
  | None => exists b c, In b bs /\ In c (succ b) /\ id c <= id b /\ ~ dom c b
  end.
Proof.
  induction bs as [|b bs IH]; intros hs I; cbn [loop_headers].
  - split; [|intros b c []]. intro h. split; [tauto|]. intros [Q|(b & [] & _)]. exact Q.
  - assert (Hb : In b rpo) by (apply I; left; reflexivity).
    assert (I' : incl bs rpo) by (intros x Hx; apply I; right; exact Hx).
    pose proof (headers_of_spec b Hb (succ b) hs (incl_refl _)) as H.
    destruct (headers_of rpo order num b (succ b) hs) as [h1|].
    + destruct H as (A & B). specialize (IH h1 I'). destruct (loop_headers succ rpo order num bs h1) as [h2|].
      * destruct IH as (C & D). split.
        -- intro h. rewrite C, A. split.
           ++ intros [[Q|(Q1 & Q2)]|(x & X1 & X2)]; [left; exact Q| |].
              ** right. exists b. split; [left; reflexivity|auto].
              ** right. exists x. split; [right; exact X1|exact X2].
           ++ intros [Q|(x & [<- |X1] & X2)]; [auto|auto|]. right. exists x. auto.
        -- intros x c [<- |Hx] Hc; auto.
      * destruct IH as (x & c & X1 & X2). exists x, c. split; [right; exact X1|exact X2].
    + destruct H as (c & C1 & C2). exists b, c. split; [left; reflexivity|auto].
Qed.

(* If some retreating edge is not a back edge, the graph has a cycle of forward edges. *)
Lemma tree_forward a b : ancp entry par a b -> In b rpo -> a = b \/ forward entry succ a b.
Proof.
  intros A. induction A as [a|a b NB A IH]; intro Hb; [left; reflexivity|right].
  destruct (o_par _ _ _ _ O b Hb NB) as (Q1 & Q2 & Q3).
  assert (FE : forward_edge entry succ (par b) b).
  { split; [apply (o_reach _ _ _ _ O); exact Q1|]. split; [exact Q2|]. intros (_ & D). pose proof (dom_id b (par b) Q1 D). lia. }
  destruct (IH Q1) as [->|W]; [apply forward_one; exact FE|].
  clear - W FE. induction W as [x y E|x y z E W IHw]; [|eapply forward_more; eauto].
  eapply forward_more; [exact E|]. apply forward_one. exact FE.
Qed.

Lemma retreat_irreducible b c : In b rpo -> In c (succ b) -> id c <= id b -> ~ dom c b -> irreducible entry succ.
Proof.
  intros Hb Hc L NDm. exists b.
  assert (FE : forward_edge entry succ b c).
  { split; [apply (o_reach _ _ _ _ O); exact Hb|]. split; [exact Hc|]. intros (_ & D). contradiction. }
  destruct (o_edge _ _ _ _ O b c Hb Hc) as [Q|A]; [lia|].
  destruct (tree_forward c b A Hb) as [->|W]; [apply forward_one; exact FE|].
  eapply forward_more; eassumption.
Qed.

Lemma reducible_ids : (forall b c, In b rpo -> In c (succ b) -> id b < id c \/ dom c b) -> ~ irreducible entry succ.
Proof.
  intros H (a & W). assert (Q : forall x y, forward entry succ x y -> id x < id y).
  { intros x y V. induction V as [x y (E1 & E2 & E3)|x y z (E1 & E2 & E3) V IH].
    - apply (o_reach _ _ _ _ O) in E1. destruct (H x y E1 E2) as [L|D]; [exact L|]. destruct E3. split; assumption.
    - apply (o_reach _ _ _ _ O) in E1. destruct (H x y E1 E2) as [L|D]; [lia|]. destruct E3. split; assumption. }
  specialize (Q a a W). lia.
Qed.

End Tree.
