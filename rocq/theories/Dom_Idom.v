(* The iterative dominator computation: it finishes, and finds the immediate dominators. *)
From Verif Require Import Base Base_Proofs Rt_Model Array_Model Interp_Model Cfg_Model Cfg_Spec Cfg_Proofs Dom_Model Dom_Spec Dom_Proofs.
From Coq Require Import ZifyBool.

(* The chain of immediate dominators from a block up. *)
Inductive ch (m : idoms) : Z -> Z -> Prop :=
| ch_refl y : ch m y y
| ch_step y x u : m y = Some x -> ch m x u -> ch m y u.

Lemma ch_ext m m' y u : (forall x, m x = m' x) -> ch m y u -> ch m' y u.
Proof. intros E H. induction H; [apply ch_refl|]. eapply ch_step; [rewrite <- E; eassumption|assumption]. Qed.

Lemma ch_trans m x y z : ch m x y -> ch m y z -> ch m x z.
Proof. intros A B. induction A; [exact B|]. eapply ch_step; eauto. Qed.

Lemma ch_inv m y u : ch m y u -> u = y \/ exists x, m y = Some x /\ ch m x u.
Proof. intro H. destruct H; eauto. Qed.

Section Idom.
Variable entry : Z.
Variable succ pred : Z -> list Z.
Hypothesis edges : forall a b, In b (succ a) <-> In a (pred b).
Hypothesis no_entry : pred entry = [].
Variable rpo : list Z.
Variable par : Z -> Z.
Hypothesis O : ordered entry succ rpo par.
Notation id := (id_of rpo).
Notation anc := (ancp entry par).
Notation dom := (doms entry succ).

Let ND : NoDup rpo := o_nodup _ _ _ _ O.
Let RE := o_reach _ _ _ _ O.
Let PA := o_par _ _ _ _ O.
Let ED := o_edge _ _ _ _ O.

Lemma entry_in : In entry rpo.
Proof. apply RE. exists [entry]. constructor. Qed.

Lemma par_pred b : In b rpo -> b <> entry -> In (par b) (pred b).
Proof. intros Hb NB. apply edges. apply (PA b Hb NB). Qed.

Lemma entry_min b : In b rpo -> id entry <= id b.
Proof.
  intro Hb. remember (Z.to_nat (id b)) as k eqn:K. revert b Hb K.
  induction k as [k IH] using lt_wf_ind. intros b Hb K.
  destruct (Z.eq_dec b entry) as [->|NB]; [lia|].
  destruct (PA b Hb NB) as (Q1 & Q2 & Q3). pose proof (proj1 (id_pos rpo _) Q1).
  specialize (IH (Z.to_nat (id (par b))) ltac:(lia) (par b) Q1 eq_refl). lia.
Qed.

Lemma anc_in a b : anc a b -> In b rpo -> In a rpo /\ id a <= id b.
Proof.
  intros A. induction A as [a|a b NB A IH]; intro Hb; [split; [exact Hb|lia]|].
  destruct (PA b Hb NB) as (Q1 & Q2 & Q3). destruct (IH Q1). split; [assumption|lia].
Qed.

Lemma anc_trans a b c : anc a b -> anc b c -> anc a c.
Proof. intros A B. induction B as [b|b c NC B IH]; [exact A|]. apply ancp_step; auto. Qed.

(* The tree path from [a] down to [b]. *)
Lemma anc_path a b l : anc a b -> In b rpo -> path entry succ l a ->
  exists l', path entry succ l' b /\ forall x, In x l' -> In x l \/ id a < id x.
Proof.
  intros A. induction A as [a|a b NB A IH]; intros Hb Hl; [exists l; split; auto|].
  destruct (PA b Hb NB) as (Q1 & Q2 & Q3). destruct (IH Q1 Hl) as (l' & P1 & P2).
  exists (b :: l'). split; [econstructor; eassumption|].
  intros x [<- |Hx]; [|auto]. right. pose proof (anc_in _ _ A Q1). lia.
Qed.

(* A dominator of a block that is high enough in the tree dominates the tree ancestor. *)
Lemma dom_anc u v y : In y rpo -> anc v y -> dom u y -> id u <= id v -> dom u v.
Proof.
  intros Hy A (R & D) L. destruct (anc_in _ _ A Hy) as (Hv & Lv).
  split; [apply RE; exact Hv|]. intros l Hl.
  destruct (anc_path v y l A Hy Hl) as (l' & P1 & P2).
  destruct (P2 u (D l' P1)) as [Q|Q]; [exact Q|lia].
Qed.

Lemma dom_pred u b p : dom u b -> u <> b -> In p (pred b) -> In p rpo -> dom u p.
Proof.
  intros (R & D) N Hp Hr. split; [apply RE; exact Hr|]. intros l Hl.
  assert (P : path entry succ (b :: l) b) by (econstructor; [exact Hl|apply edges; exact Hp]).
  destruct (D _ P) as [Q|Q]; [congruence|exact Q].
Qed.

Record good (m : idoms) : Prop := {
  g_entry : m entry = Some entry;
  g_in : forall b d, m b = Some d -> In b rpo /\ In d rpo /\ m d <> None /\ anc d b /\ (b = entry \/ id d < id b);
  g_sound : forall b u, m b <> None -> dom u b -> ch m b u }.

Lemma ch_id m y u : good m -> ch m y u -> id u <= id y.
Proof.
  intros G H. induction H as [y|y x u E H IH]; [lia|].
  destruct (g_in m G y x E) as (A & B & C & D & [->|L]); [|lia].
  rewrite (g_entry m G) in E. injection E as <-. exact IH.
Qed.

Lemma ch_anc m y u : good m -> ch m y u -> anc u y.
Proof.
  intros G H. induction H as [y|y x u E H IH]; [apply ancp_refl|].
  destruct (g_in m G y x E) as (A & B & C & D & _). exact (anc_trans _ _ _ IH D).
Qed.

Lemma ch_some m y u : good m -> ch m y u -> m y <> None -> m u <> None /\ In u rpo.
Proof.
  intros G H. induction H as [y|y x u E H IH]; intro S.
  - split; [exact S|]. destruct (m y) as [x|] eqn:Q; [|congruence]. apply (g_in m G y x Q).
  - apply IH. apply (g_in m G y x E).
Qed.

Lemma ch_entry m u : good m -> ch m entry u -> u = entry.
Proof.
  intros G H. remember entry as e eqn:Q. induction H as [y|y x u E H IH]; [reflexivity|].
  subst y. rewrite (g_entry m G) in E. injection E as <-. auto.
Qed.

(* A chain only depends on the entries with smaller ids. *)
Lemma ch_low m m' k y u : good m -> (forall x, id x < k -> m x = m' x) -> id y < k -> ch m y u -> ch m' y u.
Proof.
  intros G E L H. induction H as [y|y x u Q H IH]; [apply ch_refl|].
  eapply ch_step; [rewrite <- E by exact L; exact Q|]. apply IH.
  destruct (g_in m G y x Q) as (_ & _ & _ & _ & [->|L']); [|lia].
  rewrite (g_entry m G) in Q. congruence.
Qed.

Lemma intersect_spec m : good m -> forall fuel f1 f2, m f1 <> None -> m f2 <> None ->
  id f1 + id f2 < Z.of_nat fuel ->
  exists w, intersect rpo fuel m f1 f2 = CGood w /\ m w <> None /\
    (forall u, ch m w u <-> ch m f1 u /\ ch m f2 u).
Proof.
  intro G. induction fuel as [|f IH]; intros f1 f2 S1 S2 F.
  - exfalso. clear - F G S1 S2. destruct (m f1) as [x|] eqn:Q; [|congruence].
    destruct (m f2) as [y|] eqn:Q2; [|congruence].
    pose proof (proj1 (id_pos rpo f1) (proj1 (g_in m G _ _ Q))).
    pose proof (proj1 (id_pos rpo f2) (proj1 (g_in m G _ _ Q2))). lia.
  - cbn [intersect]. destruct (m f1) as [x1|] eqn:Q1; [|congruence].
    destruct (m f2) as [x2|] eqn:Q2; [|congruence].
    destruct (g_in m G _ _ Q1) as (A1 & B1 & C1 & D1 & L1). destruct (g_in m G _ _ Q2) as (A2 & B2 & C2 & D2 & L2).
    pose proof (entry_min _ A1). pose proof (entry_min _ A2).
    destruct (Z.eqb_spec f1 f2) as [->|NE].
    { exists f2. split; [reflexivity|]. split; [congruence|]. intro u. tauto. }
    destruct (Z.ltb_spec (id f2) (id f1)) as [L|L]; [|destruct (Z.ltb_spec (id f1) (id f2)) as [L'|L']].
    + destruct L1 as [->|L1]; [lia|].
      destruct (IH x1 f2 C1 ltac:(congruence) ltac:(lia)) as (w & E & W & U). exists w. split; [exact E|]. split; [exact W|].
      intro u. rewrite U. split; intros (P & Q); (split; [|exact Q]).
      * eapply ch_step; eassumption.
      * destruct (ch_inv m f1 u P) as [->|(x & X1 & X2)]; [|congruence].
        pose proof (ch_id m f2 f1 G Q). lia.
    + destruct L2 as [->|L2]; [lia|].
      destruct (IH f1 x2 ltac:(congruence) C2 ltac:(lia)) as (w & E & W & U). exists w. split; [exact E|]. split; [exact W|].
      intro u. rewrite U. split; intros (P & Q); (split; [exact P|]).
      * eapply ch_step; eassumption.
      * destruct (ch_inv m f2 u Q) as [->|(x & X1 & X2)]; [|congruence].
        pose proof (ch_id m f1 f2 G P). lia.
    + destruct NE. apply (id_inj rpo); [assumption..|lia].
Qed.

Definition bound : Z := 2 * Z.of_nat (length rpo).

Lemma candidate_some m fuel : good m -> bound < Z.of_nat fuel -> forall ps d, m d <> None ->
  exists w, candidate rpo fuel m ps (Some d) = CGood (Some w) /\ m w <> None /\
    (forall u, ch m w u <-> ch m d u /\ forall p, In p ps -> m p <> None -> ch m p u).
Proof.
  intros G F. induction ps as [|q ps IH]; intros d S.
  - exists d. split; [reflexivity|]. split; [exact S|]. intro u. split; [|tauto]. intro H. split; [exact H|intros p []].
  - cbn [candidate]. destruct (m q) as [x|] eqn:Q.
    + destruct (intersect_spec m G fuel d q S ltac:(congruence)) as (w & E & W & U).
      { unfold bound in F. pose proof (id_le rpo d). pose proof (id_le rpo q). lia. }
      rewrite E. cbn [cbind]. destruct (IH w W) as (w' & E' & W' & U'). exists w'. split; [exact E'|].
      split; [exact W'|]. intro u. rewrite U', U. split.
      * intros ((A & B) & C). split; [exact A|]. intros p [<- |Hp] Sp; auto.
      * intros (A & B). split; [split; [exact A|apply B; [left; reflexivity|congruence]]|].
        intros p Hp Sp. apply B; [right; exact Hp|exact Sp].
    + destruct (IH d S) as (w & E & W & U). exists w. split; [exact E|]. split; [exact W|].
      intro u. rewrite U. split; intros (A & B); (split; [exact A|]).
      * intros p [<- |Hp] Sp; [congruence|auto].
      * intros p Hp Sp. apply B; [right; exact Hp|exact Sp].
Qed.

Lemma candidate_none m fuel : good m -> bound < Z.of_nat fuel -> forall ps p0, In p0 ps -> m p0 <> None ->
  exists w, candidate rpo fuel m ps None = CGood (Some w) /\ m w <> None /\
    (forall u, ch m w u <-> forall p, In p ps -> m p <> None -> ch m p u).
Proof.
  intros G F. induction ps as [|q ps IH]; intros p0 H0 S0; [destruct H0|].
  cbn [candidate]. destruct (m q) as [x|] eqn:Q.
  - destruct (candidate_some m fuel G F ps q ltac:(congruence)) as (w & E & W & U). exists w. split; [exact E|].
    split; [exact W|]. intro u. rewrite U. split.
    + intros (A & B) p [<- |Hp] Sp; auto.
    + intro A. split; [apply A; [left; reflexivity|congruence]|]. intros p Hp Sp. apply A; [right; exact Hp|exact Sp].
  - assert (H1 : In p0 ps) by (destruct H0 as [<- |H0]; [congruence|exact H0]).
    destruct (IH p0 H1 S0) as (w & E & W & U). exists w. split; [exact E|]. split; [exact W|].
    intro u. rewrite U. split; intro A.
    + intros p [<- |Hp] Sp; [congruence|auto].
    + intros p Hp Sp. apply A; [right; exact Hp|exact Sp].
Qed.

(* Setting one block's dominator to the meet of its predecessors. *)
Definition meet (m : idoms) (b e : Z) : Prop :=
  forall u, ch m e u <-> forall p, In p (pred b) -> m p <> None -> ch m p u.

Lemma update_good m b e : good m -> In b rpo -> b <> entry -> m (par b) <> None -> m e <> None -> meet m b e ->
  good (upd m b (Some e)) /\ id e < id b /\ anc e b.
Proof.
  intros G Hb NB SP SE M.
  destruct (PA b Hb NB) as (Q1 & Q2 & Q3).
  assert (CP : ch m (par b) e) by (apply (proj1 (M e) (ch_refl m e)); [apply par_pred; assumption|exact SP]).
  pose proof (ch_id m _ _ G CP) as LE.
  assert (AE : anc e b) by (apply ancp_step; [exact NB|exact (ch_anc m _ _ G CP)]).
  assert (IE : In e rpo) by (exact (proj2 (ch_some m _ _ G CP SP))).
  assert (SM : forall x, m x <> None -> upd m b (Some e) x <> None).
  { intros x Hx. unfold upd. destruct (x =? b); [discriminate|exact Hx]. }
  split; [|split; [lia|exact AE]].
  constructor.
  - unfold upd. destruct (Z.eqb_spec entry b) as [->|]; [congruence|apply (g_entry m G)].
  - intros x d H. unfold upd in H. destruct (Z.eqb_spec x b) as [->|NX].
    + injection H as <-. split; [exact Hb|]. split; [exact IE|]. split; [apply SM; exact SE|]. split; [exact AE|right; lia].
    + destruct (g_in m G x d H) as (A & B & C & D). split; [exact A|]. split; [exact B|]. split; [apply SM; exact C|exact D].
  - intros y u Sy Du. remember (Z.to_nat (id y)) as k eqn:K. revert y Sy Du K.
    induction k as [k IH] using lt_wf_ind. intros y Sy Du K.
    destruct (Z.eq_dec u y) as [->|NU]; [apply ch_refl|].
    assert (ST : forall x, upd m b (Some e) y = Some x -> In y rpo -> In x rpo -> id x < id y -> m x <> None -> anc x y -> ch m x u ->
                 ch (upd m b (Some e)) y u).
    { intros x Hx Iy Ix L Sx Ax Cx. eapply ch_step; [exact Hx|].
      pose proof (proj1 (id_pos rpo x) Ix).
      apply (IH (Z.to_nat (id x)) ltac:(lia) x); [apply SM; exact Sx| |reflexivity].
      apply (dom_anc u x y Iy Ax Du). apply (ch_id m); assumption. }
    destruct (Z.eq_dec y b) as [EY|NY].
    + subst y. apply (ST e ltac:(unfold upd; rewrite Z.eqb_refl; reflexivity) Hb IE ltac:(lia) SE AE). apply M. intros p Hp Sp.
      assert (Ip : In p rpo) by (destruct (m p) as [z|] eqn:Z1; [apply (g_in m G p z Z1)|congruence]).
      apply (g_sound m G p u Sp). exact (dom_pred u b p Du NU Hp Ip).
    + assert (UY : upd m b (Some e) y = m y) by (unfold upd; destruct (Z.eqb_spec y b); [contradiction|reflexivity]).
      rewrite UY in Sy. destruct (m y) as [x|] eqn:Q; [|congruence].
      destruct (g_in m G y x Q) as (A & B & C & D & [->|L]).
      * destruct NU. destruct Du as (_ & Du). destruct (Du [entry] (path_entry _ _)) as [<- |[]]. reflexivity.
      * apply (ST x UY A B L C D).
        pose proof (g_sound m G y u ltac:(congruence) Du) as CU.
        destruct (ch_inv m y u CU) as [->|(x' & X1 & X2)]; [congruence|]. congruence.
Qed.

(* The state a block sees during a round that takes [m0] to [m1]. *)
Definition mix (m0 m1 : idoms) (b : Z) : idoms := fun x => if id x <? id b then m1 x else m0 x.

Definition round_at (m0 m1 : idoms) (b : Z) : Prop :=
  exists e, m1 b = Some e /\ id e < id b /\ good (mix m0 m1 b) /\ meet (mix m0 m1 b) b e.

Lemma good_ext m m' : (forall x, m x = m' x) -> good m -> good m'.
Proof.
  intros E G. constructor.
  - rewrite <- E. apply (g_entry m G).
  - intros b d. rewrite <- !E. apply (g_in m G).
  - intros b u Sb Du. apply (ch_ext m m' b u E). apply (g_sound m G); [rewrite E; exact Sb|exact Du].
Qed.

Lemma meet_ext m m' b e : (forall x, m x = m' x) -> meet m b e -> meet m' b e.
Proof.
  intros E M u. split.
  - intros H p Hp Sp. apply (ch_ext m m' p u E). apply M; [|exact Hp|rewrite E; exact Sp].
    apply (ch_ext m' m); [intro; symmetry; apply E|exact H].
  - intros H. apply (ch_ext m m' e u E). apply M. intros p Hp Sp.
    apply (ch_ext m' m); [intro; symmetry; apply E|]. apply H; [exact Hp|rewrite <- E; exact Sp].
Qed.

Lemma round_at_ext m0 m0' m1 b : (forall x, mix m0 m1 b x = mix m0' m1 b x) -> round_at m0 m1 b -> round_at m0' m1 b.
Proof.
  intros E (e & A & B & C & D). exists e. split; [exact A|]. split; [exact B|].
  split; [exact (good_ext _ _ E C)|exact (meet_ext _ _ b e E D)].
Qed.

Lemma dom_pass_spec fuel : bound < Z.of_nat fuel -> forall bs pre m chg, rpo = pre ++ bs -> good m ->
  (forall x, In x pre -> m x <> None) ->
  exists m' chg', dom_pass pred rpo fuel bs m chg = CGood (m', chg') /\ good m' /\
    (forall x, ~ In x bs -> m' x = m x) /\ (forall x, In x bs -> m' x <> None) /\
    (forall b, In b bs -> b <> entry -> round_at m m' b) /\
    (chg' = false -> chg = false /\ forall x, m' x = m x) /\
    (chg' = true -> chg = false -> exists x, In x rpo /\ m' x <> m x).
Proof.
  intro F. induction bs as [|b rest IH]; intros pr m chg E G S.
  { exists m, chg. split; [reflexivity|]. split; [exact G|]. split; [reflexivity|]. split; [intros x []|].
    split; [intros b []|]. split; [tauto|congruence]. }
  assert (ND' := ND). rewrite E in ND'. pose proof (id_app pr b rest ND') as (I1 & I2 & I3). rewrite <- E in I1, I2, I3.
  assert (Hb : In b rpo) by (rewrite E; apply in_or_app; right; left; reflexivity).
  assert (NR : ~ In b rest).
  { intro Q. specialize (I3 b Q). lia. }
  assert (LOW : forall x, id x < id b -> ~ In x (b :: rest)).
  { intros x L [<- |Q]; [lia|]. specialize (I3 x Q). lia. }
  assert (E' : rpo = (pr ++ [b]) ++ rest) by (rewrite <- app_assoc; exact E).
  cbn [dom_pass]. destruct (pred b) as [|p0 ps] eqn:PB.
  - (* the entry *)
    assert (b = entry) as ->.
    { destruct (Z.eq_dec b entry) as [Q|Q]; [exact Q|]. pose proof (par_pred b Hb Q) as W. rewrite PB in W. destruct W. }
    destruct (IH (pr ++ [entry]) m chg E' G) as (m' & chg' & A & B & C & D & R & K1 & K2).
    { intros x Hx. apply in_app_or in Hx. destruct Hx as [Hx|[<- |[]]]; [auto|]. rewrite (g_entry m G). discriminate. }
    exists m', chg'. split; [exact A|]. split; [exact B|]. split; [|split; [|split; [|split]]].
    + intros x Hx. apply C. intro. apply Hx. right. assumption.
    + intros x [<- |Hx]; [rewrite (g_entry m' B); discriminate|auto].
    + intros x [<- |Hx] NX; [congruence|auto].
    + exact K1.
    + exact K2.
  - assert (NB : b <> entry) by (intros ->; congruence).
    destruct (PA b Hb NB) as (Q1 & Q2 & Q3).
    assert (SP : m (par b) <> None).
    { apply S. rewrite E in Q1. apply in_app_or in Q1. destruct Q1 as [Q1|Q1]; [exact Q1|].
      exfalso. exact (LOW (par b) Q3 Q1). }
    destruct (candidate_none m fuel G F (p0 :: ps) (par b)) as (e & CE & SE & ME).
    { rewrite <- PB. apply par_pred; assumption. }
    { exact SP. }
    rewrite CE. cbn [cbind].
    assert (M : meet m b e) by (intro u; rewrite PB; apply ME).
    destruct (update_good m b e G Hb NB SP SE M) as (G1 & LE & AE).
    set (m1 := upd m b (Some e)) in *.
    assert (U1 : forall x, x <> b -> m1 x = m x).
    { intros x Hx. unfold m1, upd. destruct (Z.eqb_spec x b); [contradiction|reflexivity]. }
    assert (U2 : m1 b = Some e) by (unfold m1, upd; rewrite Z.eqb_refl; reflexivity).
    assert (S1 : forall x, In x (pr ++ [b]) -> m1 x <> None).
    { intros x Hx. destruct (Z.eq_dec x b) as [->|NX]; [rewrite U2; discriminate|]. rewrite U1 by exact NX.
      apply in_app_or in Hx. destruct Hx as [Hx|[<- |[]]]; [auto|congruence]. }
    assert (GEN : forall m2 chg2, (forall x, m2 x = m1 x) ->
      (chg2 = false -> chg = false /\ forall x, m1 x = m x) ->
      (chg2 = true -> chg = false -> m1 b <> m b) ->
      exists m' chg', dom_pass pred rpo fuel rest m2 chg2 = CGood (m', chg') /\ good m' /\
        (forall x, ~ In x (b :: rest) -> m' x = m x) /\ (forall x, In x (b :: rest) -> m' x <> None) /\
        (forall c, In c (b :: rest) -> c <> entry -> round_at m m' c) /\
        (chg' = false -> chg = false /\ forall x, m' x = m x) /\
        (chg' = true -> chg = false -> exists x, In x rpo /\ m' x <> m x)).
    { intros m2 chg2 EX K1 K2.
      assert (G2 : good m2) by (apply (good_ext m1); [intro; symmetry; apply EX|exact G1]).
      destruct (IH (pr ++ [b]) m2 chg2 E' G2) as (m' & chg' & A & B & C & D & R & K3 & K4).
      { intros x Hx. rewrite EX. apply S1. exact Hx. }
      assert (C' : forall x, ~ In x rest -> m' x = m1 x) by (intros x Hx; rewrite C by exact Hx; apply EX).
      exists m', chg'. split; [exact A|]. split; [exact B|]. split; [|split; [|split; [|split]]].
      - intros x Hx. rewrite C' by (intro; apply Hx; right; assumption). apply U1. intros ->. apply Hx. left. reflexivity.
      - intros x [<- |Hx]; [rewrite C', U2 by exact NR; discriminate|auto].
      - intros c [<- |Hc] NC.
        + assert (EM : forall x, mix m m' b x = m x).
          { intro x. unfold mix. destruct (Z.ltb_spec (id x) (id b)) as [L|L]; [|reflexivity].
            pose proof (LOW x L) as W. rewrite C' by (intro; apply W; right; assumption).
            apply U1. intros ->. lia. }
          exists e. split; [rewrite C' by exact NR; exact U2|]. split; [exact LE|].
          split; [apply (good_ext m); [intro; symmetry; apply EM|exact G]|].
          apply (meet_ext m); [intro; symmetry; apply EM|exact M].
        + apply (round_at_ext m2 m m' c); [|apply R; assumption].
          intro x. unfold mix. destruct (Z.ltb_spec (id x) (id c)) as [L|L]; [reflexivity|].
          rewrite EX. apply U1. intros ->. specialize (I3 c Hc). lia.
      - intro Q. destruct (K3 Q) as (W1 & W2). destruct (K1 W1) as (W3 & W4). split; [exact W3|].
        intro x. rewrite W2, EX. apply W4.
      - intros Q Qc. destruct chg2.
        + exists b. split; [exact Hb|]. rewrite C' by exact NR. apply K2; auto.
        + destruct (K4 Q eq_refl) as (x & X1 & X2). exists x. split; [exact X1|].
          destruct (K1 eq_refl) as (_ & W). rewrite <- W, <- EX. exact X2. }
    destruct (m b) as [d0|] eqn:MB; [destruct (Z.eqb_spec e d0) as [->|NE]|].
    + apply GEN.
      * intro x. destruct (Z.eq_dec x b) as [->|NX]; [congruence|symmetry; apply U1; exact NX].
      * intro Q. split; [exact Q|]. intro x. destruct (Z.eq_dec x b) as [->|NX]; [congruence|apply U1; exact NX].
      * intros W1 W2. congruence.
    + apply GEN; [reflexivity|discriminate|]. intros _ _. rewrite U2. congruence.
    + apply GEN; [reflexivity|discriminate|]. intros _ _. rewrite U2. congruence.
Qed.

(* The parent's chain contains the dominator, once a round is complete. *)
Definition full (m : idoms) : Prop := forall b, In b rpo -> m b <> None.
Definition settled (m : idoms) : Prop := forall b, In b rpo -> b <> entry -> exists e, m b = Some e /\ ch m (par b) e.

Lemma mix_low m0 m1 b y u : good m1 -> good (mix m0 m1 b) -> id y < id b -> ch (mix m0 m1 b) y u <-> ch m1 y u.
Proof.
  intros G1 G L. split.
  - apply (ch_low _ _ (id b) y u G); [|exact L]. intros x Hx. unfold mix. destruct (Z.ltb_spec (id x) (id b)); [reflexivity|lia].
  - apply (ch_low _ _ (id b) y u G1); [|exact L]. intros x Hx. unfold mix. destruct (Z.ltb_spec (id x) (id b)); [reflexivity|lia].
Qed.

Definition round (m0 m1 : idoms) : Prop := forall b, In b rpo -> b <> entry -> round_at m0 m1 b.

Lemma round_settled m0 m1 : good m1 -> full m1 -> round m0 m1 -> settled m1.
Proof.
  intros G1 F1 R b Hb NB. destruct (R b Hb NB) as (e & A & L & G & M). exists e. split; [exact A|].
  destruct (PA b Hb NB) as (Q1 & Q2 & Q3).
  apply (mix_low m0 m1 b); [exact G1|exact G|exact Q3|].
  apply (proj1 (M e) (ch_refl _ e)); [apply par_pred; assumption|].
  unfold mix. destruct (Z.ltb_spec (id (par b)) (id b)); [apply F1; exact Q1|lia].
Qed.

Lemma settled_anc m v b u : good m -> settled m -> In b rpo -> anc v b -> ch m b u -> id u <= id v -> ch m v u.
Proof.
  intros G T Hb A. revert u Hb. induction A as [a|a b NB A IH]; intros u Hb C L; [exact C|].
  destruct (PA b Hb NB) as (Q1 & Q2 & Q3).
  apply IH; [exact Q1| |exact L].
  destruct (T b Hb NB) as (e & E1 & E2).
  destruct (ch_inv m b u C) as [->|(x & X1 & X2)].
  - pose proof (anc_in _ _ A Q1). lia.
  - rewrite E1 in X1. injection X1 as <-. exact (ch_trans m _ _ _ E2 X2).
Qed.

(* Chains only shrink from one round to the next. *)
Lemma rounds_shrink m0 m1 m2 : good m0 -> good m1 -> good m2 -> full m1 -> full m2 -> round m0 m1 -> round m1 m2 ->
  (forall y u, ch m1 y u -> m0 y = None \/ ch m0 y u) ->
  forall y u, In y rpo -> ch m2 y u -> ch m1 y u.
Proof.
  intros G0 G1 G2 F1 F2 R01 R12 H01 y u Hy. pose proof (round_settled m0 m1 G1 F1 R01) as T1.
  remember (Z.to_nat (id y)) as k eqn:K. revert y u Hy K.
  induction k as [k IH] using lt_wf_ind. intros y u Hy K C.
  destruct (Z.eq_dec y entry) as [->|NE]; [rewrite (ch_entry m2 u G2 C); apply ch_refl|].
  destruct (Z.eq_dec u y) as [->|NU]; [apply ch_refl|].
  assert (IH' : forall z u, In z rpo -> id z < id y -> ch m2 z u -> ch m1 z u).
  { intros z w Hz Lz Cz. pose proof (proj1 (id_pos rpo z) Hz). apply (IH (Z.to_nat (id z)) ltac:(lia) z w Hz eq_refl Cz). }
  destruct (R12 y Hy NE) as (e2 & A2 & L2 & GM2 & M2).
  destruct (R01 y Hy NE) as (e1 & A1 & L1 & GM1 & M1).
  assert (C2 : ch m2 e2 u).
  { destruct (ch_inv m2 y u C) as [->|(x & X1 & X2)]; [congruence|]. congruence. }
  assert (LU : id u < id y) by (pose proof (ch_id m2 e2 u G2 C2); lia).
  eapply ch_step; [exact A1|]. apply (mix_low m0 m1 y e1 u G1 GM1 L1). apply M1. intros p Hp Sp.
  assert (P2 : mix m1 m2 y p <> None -> ch (mix m1 m2 y) p u).
  { intro Sp2. apply (proj1 (M2 u)); [|exact Hp|exact Sp2]. apply (mix_low m1 m2 y e2 u G2 GM2 L2). exact C2. }
  unfold mix in Sp at 1. destruct (Z.ltb_spec (id p) (id y)) as [L|L].
  - apply (mix_low m0 m1 y p u G1 GM1 L).
    assert (Hpr : In p rpo) by (destruct (m1 p) as [z|] eqn:Z1; [apply (g_in m1 G1 p z Z1)|congruence]).
    apply (IH' p u Hpr L). apply (mix_low m1 m2 y p u G2 GM2 L). apply P2.
    unfold mix. destruct (Z.ltb_spec (id p) (id y)); [apply F2; exact Hpr|lia].
  - assert (Hpr : In p rpo) by (destruct (m0 p) as [z|] eqn:Z1; [apply (g_in m0 G0 p z Z1)|congruence]).
    assert (C1 : ch m1 p u).
    { assert (Cm : ch (mix m1 m2 y) p u).
      { apply P2. unfold mix. destruct (Z.ltb_spec (id p) (id y)); [lia|apply F1; exact Hpr]. }
      clear - Cm LU G1 G2 GM2 IH'. revert LU. induction Cm as [q|q x u Q Cm IHc]; intro LU; [apply ch_refl|].
      destruct (Z.ltb_spec (id q) (id y)) as [Lq|Lq].
      - assert (Cq : ch (mix m1 m2 y) q u) by (eapply ch_step; eassumption).
        assert (Hq : In q rpo) by (apply (g_in _ GM2 q x Q)).
        apply (IH' q u Hq Lq). apply (mix_low m1 m2 y q u G2 GM2 Lq). exact Cq.
      - specialize (IHc LU). unfold mix in Q. destruct (Z.ltb_spec (id q) (id y)); [lia|].
        eapply ch_step; eassumption. }
    destruct (H01 p u C1) as [N0|C0]; [congruence|].
    (* walk the old chain of p down to below y *)
    assert (W : forall q, ch m0 q u -> anc q p -> In q rpo -> ch (mix m0 m1 y) q u).
    { intros q Cq. induction Cq as [q|q x u Q Cq IHc]; intros Aq Hq; [apply ch_refl|].
      destruct (g_in m0 G0 q x Q) as (_ & Hx & _ & Ax & _).
      destruct (Z.ltb_spec (id q) (id y)) as [Lq|Lq].
      - apply (mix_low m0 m1 y q u G1 GM1 Lq).
        apply (settled_anc m1 q p u G1 T1 Hpr Aq C1). apply (ch_id m0 q u G0). eapply ch_step; eassumption.
      - eapply ch_step; [unfold mix; destruct (Z.ltb_spec (id q) (id y)); [lia|exact Q]|].
        apply IHc; try assumption.
        + exact (anc_trans _ _ _ Ax Aq). }
    apply W; [exact C0|apply ancp_refl|exact Hpr].
Qed.

Definition total (m : idoms) : Z := fold_right (fun b n => match m b with Some d => id d | None => 0 end + n) 0 rpo.

Lemma fold_le (f g : Z -> Z) l : (forall x, In x l -> f x <= g x) ->
  fold_right (fun b n => f b + n) 0 l <= fold_right (fun b n => g b + n) 0 l.
Proof.
  intro H. induction l as [|x l IH]; cbn; [lia|].
  pose proof (H x (or_introl eq_refl)). assert (forall y, In y l -> f y <= g y) by (intros; apply H; right; assumption).
  specialize (IH H1). lia.
Qed.

Lemma fold_lt (f g : Z -> Z) l : (forall x, In x l -> f x <= g x) -> (exists x, In x l /\ f x < g x) ->
  fold_right (fun b n => f b + n) 0 l < fold_right (fun b n => g b + n) 0 l.
Proof.
  intros H (x & Hx & L). induction l as [|y l IH]; [destruct Hx|].
  cbn. pose proof (H y (or_introl eq_refl)).
  assert (H' : forall y, In y l -> f y <= g y) by (intros; apply H; right; assumption).
  destruct Hx as [->|Hx].
  - pose proof (fold_le f g l H'). lia.
  - specialize (IH H' Hx). lia.
Qed.

Lemma total_nonneg m : 0 <= total m.
Proof.
  unfold total. clear. generalize rpo at 2. intro l. induction l as [|x l IH]; cbn; [lia|].
  destruct (m x) as [d|]; [|lia]. destruct (in_dec Z.eq_dec d rpo) as [I|I].
  - pose proof (proj1 (id_pos rpo d) I). lia.
  - rewrite (id_out rpo d I). lia.
Qed.

Lemma total_le m : total m <= Z.of_nat (length rpo) * Z.of_nat (length rpo).
Proof.
  unfold total.
  assert (G : forall l, fold_right (fun b n => match m b with Some d => id_of rpo d | None => 0 end + n) 0 l
                        <= Z.of_nat (length l) * Z.of_nat (length rpo)).
  { induction l as [|x l IH]; cbn [fold_right length]; [lia|].
    destruct (m x) as [d|]; [pose proof (id_le rpo d)|]; lia. }
  apply G.
Qed.

Lemma total_lt m1 m2 : good m1 -> good m2 -> full m1 -> full m2 -> (forall y u, In y rpo -> ch m2 y u -> ch m1 y u) ->
  (exists x, In x rpo /\ m2 x <> m1 x) -> total m2 < total m1.
Proof.
  intros G1 G2 F1 F2 S (x & Hx & NE).
  assert (KEY : forall b d1 d2, In b rpo -> m1 b = Some d1 -> m2 b = Some d2 -> id d2 <= id d1 /\ (id d2 = id d1 -> d2 = d1)).
  { intros b d1 d2 Hb E1 E2.
    destruct (g_in m1 G1 b d1 E1) as (_ & I1 & _ & _ & L1). destruct (g_in m2 G2 b d2 E2) as (_ & I2 & _ & _ & L2).
    assert (L : id d2 <= id d1).
    { destruct (Z.eq_dec b entry) as [->|NB].
      - rewrite (g_entry m1 G1) in E1. rewrite (g_entry m2 G2) in E2. injection E1 as <-. injection E2 as <-. lia.
      - destruct L2 as [L2|L2]; [congruence|].
        assert (C : ch m1 b d2) by (apply S; [exact Hb|eapply ch_step; [exact E2|apply ch_refl]]).
        destruct (ch_inv m1 b d2 C) as [->|(z & Z1 & Z2)]; [lia|].
        rewrite E1 in Z1. injection Z1 as <-. apply (ch_id m1); assumption. }
    split; [exact L|]. intro Q. apply (id_inj rpo); assumption. }
  apply fold_lt.
  - intros b Hb. pose proof (F1 b Hb). pose proof (F2 b Hb). destruct (m1 b) as [d1|] eqn:E1; [|congruence].
    destruct (m2 b) as [d2|] eqn:E2; [|congruence]. apply (KEY b); assumption.
  - exists x. split; [exact Hx|]. pose proof (F1 x Hx). pose proof (F2 x Hx). destruct (m1 x) as [d1|] eqn:E1; [|congruence].
    destruct (m2 x) as [d2|] eqn:E2; [|congruence]. destruct (KEY x d1 d2 Hx E1 E2) as (L & EQ).
    assert (id d2 <> id d1) by (intro Q; apply NE; f_equal; auto). lia.
Qed.

(* What the computation delivers. *)
Definition fixed (m : idoms) : Prop := good m /\ full m /\ forall b, In b rpo -> b <> entry -> exists e, m b = Some e /\ id e < id b /\ meet m b e.

Lemma round_fixed m m' : good m' -> full m' -> round m m' -> (forall x, m' x = m x) -> fixed m'.
Proof.
  intros G F R E. split; [exact G|]. split; [exact F|]. intros b Hb NB.
  destruct (R b Hb NB) as (e & A & L & GM & M). exists e. split; [exact A|]. split; [exact L|].
  apply (meet_ext (mix m m' b)); [|exact M]. intro x. unfold mix. rewrite E. destruct (id x <? id b); reflexivity.
Qed.

Lemma dom_rounds_later fuel : bound < Z.of_nat fuel -> forall rounds m0 m1, good m0 -> good m1 -> full m1 -> round m0 m1 ->
  (forall y u, ch m1 y u -> m0 y = None \/ ch m0 y u) -> total m1 < Z.of_nat rounds ->
  exists m, dom_rounds pred rpo rounds fuel m1 = CGood m /\ fixed m.
Proof.
  intro F. induction rounds as [|r IH]; intros m0 m1 G0 G1 F1 R H01 L.
  { pose proof (total_nonneg m1). lia. }
  cbn [dom_rounds].
  destruct (dom_pass_spec fuel F rpo [] m1 false eq_refl G1 ltac:(intros x [])) as (m2 & chg & A & G2 & C & D & R2 & K1 & K2).
  rewrite A. cbn [cbind].
  assert (F2 : full m2) by (intros b Hb; apply D; exact Hb).
  destruct chg.
  - destruct (K2 eq_refl eq_refl) as (x & X1 & X2).
    pose proof (rounds_shrink m0 m1 m2 G0 G1 G2 F1 F2 R R2 H01) as S.
    apply (IH m1 m2 G1 G2 F2 R2).
    + intros y u Hc. destruct (in_dec Z.eq_dec y rpo) as [Hy|Hy]; [right; apply S; assumption|left].
      destruct (m1 y) as [z|] eqn:Q; [|reflexivity]. destruct Hy. apply (g_in m1 G1 y z Q).
    + pose proof (total_lt m1 m2 G1 G2 F1 F2 S (ex_intro _ x (conj X1 X2))). lia.
  - exists m2. split; [reflexivity|]. destruct (K1 eq_refl) as (_ & E). exact (round_fixed m1 m2 G2 F2 R2 E).
Qed.

Lemma idoms_spec rounds fuel : bound < Z.of_nat fuel ->
  Z.of_nat (length rpo) * Z.of_nat (length rpo) + 1 < Z.of_nat rounds ->
  exists m, compute_idoms entry pred rpo rounds fuel = CGood m /\ fixed m.
Proof.
  intros F L. unfold compute_idoms. set (m0 := upd (fun _ : Z => None) entry (Some entry)).
  assert (V : forall x d, m0 x = Some d -> x = entry /\ d = entry).
  { intros x d. unfold m0, upd. destruct (Z.eqb_spec x entry); [|discriminate]. intro Q. injection Q as <-. auto. }
  assert (V1 : m0 entry = Some entry) by (unfold m0, upd; rewrite Z.eqb_refl; reflexivity).
  assert (G0 : good m0).
  { constructor.
    - exact V1.
    - intros b d H. destruct (V b d H) as (-> & ->). split; [apply entry_in|]. split; [apply entry_in|].
      split; [congruence|]. split; [apply ancp_refl|left; reflexivity].
    - intros b u Sb (_ & D). destruct (m0 b) as [d|] eqn:Q; [|congruence]. destruct (V b d Q) as (-> & ->).
      destruct (D [entry] (path_entry _ _)) as [<- |[]]. apply ch_refl. }
  destruct rounds as [|r]; [lia|]. cbn [dom_rounds].
  destruct (dom_pass_spec fuel F rpo [] m0 false eq_refl G0 ltac:(intros x [])) as (m1 & chg & A & G1 & C & D & R & K1 & K2).
  rewrite A. cbn [cbind].
  assert (F1 : full m1) by (intros b Hb; apply D; exact Hb).
  destruct chg.
  - apply (dom_rounds_later fuel F r m0 m1 G0 G1 F1 R).
    + intros y u Hc. destruct (m0 y) as [d|] eqn:Q; [|left; reflexivity]. right.
      destruct (V y d Q) as (-> & ->). rewrite (ch_entry m1 u G1 Hc). apply ch_refl.
    + pose proof (total_le m1). lia.
  - exists m1. split; [reflexivity|]. destruct (K1 eq_refl) as (_ & E). exact (round_fixed m0 m1 G1 F1 R E).
Qed.

(* At the fixed point the chains are exactly the dominators. *)
Lemma fixed_doms m b u : fixed m -> In b rpo -> ch m b u <-> dom u b.
Proof.
  intros (G & F & X) Hb. split; [|intro D; apply (g_sound m G); [apply F; exact Hb|exact D]].
  intro C. split; [apply RE; exact Hb|]. intros l P. revert u C. induction P as [|l p b P IH E]; intros u C.
  - rewrite (ch_entry m u G C). left. reflexivity.
  - destruct (ch_inv m b u C) as [->|(d & D1 & D2)]; [left; reflexivity|right].
    assert (NB : b <> entry) by (exact (not_entry entry succ pred edges no_entry p b E)).
    assert (Hp : In p rpo) by (apply RE; exists l; exact P).
    destruct (X b Hb NB) as (e & E1 & E2 & E3). rewrite E1 in D1. injection D1 as <-.
    apply (IH Hp). apply (proj1 (E3 u) D2); [apply edges; exact E|apply F; exact Hp].
Qed.

Lemma fixed_idom m b d : fixed m -> m b = Some d -> In b rpo /\ In d rpo /\ id d <= id b /\
  (b = entry /\ d = entry \/ b <> entry /\ is_idom entry succ d b /\ id d < id b).
Proof.
  intros X E. destruct (X) as (G & F & M). destruct (g_in m G b d E) as (Hb & Hd & Sd & A & L).
  split; [exact Hb|]. split; [exact Hd|].
  destruct (Z.eq_dec b entry) as [->|NB].
  - rewrite (g_entry m G) in E. injection E as <-. split; [lia|]. left. split; reflexivity.
  - destruct L as [L|L]; [congruence|]. split; [lia|]. right. split; [exact NB|]. split; [|exact L]. split; [|split].
    + intros ->. lia.
    + apply (fixed_doms m b d X Hb). eapply ch_step; [exact E|apply ch_refl].
    + intros a Da Na. apply (fixed_doms m d a X Hd). apply (fixed_doms m b a X Hb) in Da.
      destruct (ch_inv m b a Da) as [->|(z & Z1 & Z2)]; [congruence|]. congruence.
Qed.

End Idom.
