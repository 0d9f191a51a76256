(* The graph the scan builds, and the analyses together. *)
From Verif Require Import Base Base_Proofs Rt_Model Array_Model Interp_Model Cfg_Model Cfg_Spec Cfg_Proofs Dom_Model Dom_Spec Dom_Proofs Dom_Idom Dom_Tree.
From Coq Require Import ZifyBool.

(* --- Adding blocks --- *)
Record adds (g g' : graph) (ss : list Z) : Prop := {
  ad_known : forall x, In x (g_known g') <-> In x (g_known g) \/ In x ss;
  ad_queue : forall x, In x (g_queue g') <-> In x (g_queue g) \/ In x ss /\ ~ In x (g_known g);
  ad_nodup : NoDup (g_known g) -> NoDup (g_known g');
  ad_nodupq : NoDup (g_queue g) -> incl (g_queue g) (g_known g) -> NoDup (g_queue g') }.

Lemma adds_one b g : adds g (get_or_add b g) [b].
Proof.
  unfold get_or_add. destruct (mem_z b (g_known g)) eqn:M.
  - apply mem_z_In in M. constructor; try tauto; intro x; cbn [In].
    + split; [tauto|]. intros [Q|[<- |[]]]; assumption.
    + split; [tauto|]. intros [Q|([<- |[]] & Q)]; [assumption|contradiction].
  - assert (N : ~ In b (g_known g)) by (intro Q; apply mem_z_In in Q; congruence).
    constructor; cbn [g_known g_queue In]; try intro x.
    + tauto.
    + split; [intros [<- |Q]; [right; split; [left; reflexivity|exact N]|left; exact Q]|].
      intros [Q|([<- |[]] & Q)]; auto.
    + constructor; assumption.
    + intro I. constructor; [|assumption]. intro Q. apply N, I, Q.
Qed.

Lemma adds_trans g g1 g2 s1 s2 : adds g g1 s1 -> adds g1 g2 s2 -> adds g g2 (s1 ++ s2).
Proof.
  intros [A1 A2 A3 A4] [B1 B2 B3 B4]. constructor.
  - intro x. rewrite B1, A1, in_app_iff. tauto.
  - intro x. rewrite B2, A2, A1, in_app_iff.
    destruct (in_dec Z.eq_dec x s1); destruct (in_dec Z.eq_dec x (g_known g)); tauto.
  - auto.
  - intros N I. apply B4; [apply A4; assumption|]. intros x Hx. apply A1. apply A2 in Hx.
    destruct Hx as [Hx|(Hx & _)]; [left; apply I; exact Hx|right; exact Hx].
Qed.

Lemma adds_same g g1 g2 s : adds g g1 s -> g_known g2 = g_known g1 -> g_queue g2 = g_queue g1 -> adds g g2 s.
Proof. intros [A1 A2 A3 A4] E1 E2. constructor; rewrite ?E1, ?E2; assumption. Qed.

Lemma adds_perm g g1 s s' : adds g g1 s -> (forall x, In x s <-> In x s') -> adds g g1 s'.
Proof.
  intros [A1 A2 A3 A4] E. constructor; [| |assumption..]; intro x.
  - rewrite A1, E. tauto.
  - rewrite A2, E. tauto.
Qed.

Lemma get_or_add_rest b g : g_edges (get_or_add b g) = g_edges g /\ g_ends (get_or_add b g) = g_ends g.
Proof. unfold get_or_add. destruct (mem_z b (g_known g)); split; reflexivity. Qed.

Section Scan.
Variable strict : bool.
Variable code : list Z.
Variable start : Z.
Variable pr : pre.
Hypothesis PI : pre_inv code start (pr_stop pr) (pr_insns pr) (pr_targets pr).
Notation insns := (pr_insns pr).
Notation fin_block := (block_end code start (pr_targets pr)).
Notation spans := (span code start (pr_targets pr)).

Lemma is_target_In c : is_target pr c = true <-> In c (pr_targets pr).
Proof. apply mem_z_In. Qed.

Definition step_to (cur e : Z) (ss : list Z) (g g' : graph) : Prop :=
  adds g g' ss /\ g_edges g' = g_edges g ++ map (fun s => (cur, s)) ss /\ g_ends g' = (cur, e) :: g_ends g.

Lemma add_cases_graph cur offs : forall g g', add_cases strict pr cur offs g = FEnded g' ->
  adds g g' (map (fun o => o / 4) offs) /\ Forall (fun o => In (o / 4) insns) offs /\
  g_edges g' = g_edges g ++ map (fun s => (cur, s)) (map (fun o => o / 4) offs) /\ g_ends g' = g_ends g.
Proof.
  induction offs as [|o rest IH]; intros g g' H; cbn [add_cases] in H.
  - assert (g' = g) as -> by congruence. split; [|split; [constructor|split; [rewrite app_nil_r; reflexivity|reflexivity]]].
    constructor; cbn; intuition.
  - destruct (negb (is_insn pr (o / 4))) eqn:E1; [discriminate|].
    destruct (strict && negb (is_target pr (o / 4))); [discriminate|].
    apply IH in H. destruct H as (A & F & E & N).
    assert (I : In (o / 4) insns) by (apply is_insn_In; destruct (is_insn pr (o / 4)); [reflexivity|discriminate]).
    destruct (get_or_add_rest (o / 4) g) as (R1 & R2). cbn [add_edge g_edges g_ends] in E, N. rewrite R1 in E. rewrite R2 in N.
    cbn [map]. split; [|split; [constructor; assumption|split; [|exact N]]].
    + apply (adds_trans g (add_edge cur (o / 4) (get_or_add (o / 4) g)) g' [o / 4]); [|exact A].
      apply (adds_same g (get_or_add (o / 4) g)); [apply adds_one|reflexivity|reflexivity].
    + rewrite E, <- app_assoc. reflexivity.
Qed.

Lemma scan_flow_graph cur cip g g' :
  scan_flow strict code pr cur cip g = FEnded g' -> In cip insns \/ cip = pr_stop pr -> spans cur cip ->
  exists e ss, fin_block cur e ss /\ step_to cur e ss g g' /\ incl ss insns.
Proof.
  unfold scan_flow, stop. intros H IN SP.
  destruct (pr_stop pr <? cip + 1) eqn:EM; [discriminate|].
  assert (I : In cip insns) by (destruct IN; [assumption|lia]). clear IN.
  destruct (strict && negb (is_insn pr cip)); [discriminate|].
  destruct (is_target pr cip && negb (cur =? cip)) eqn:ET.
  { match type of H with FEnded ?x = _ => assert (g' = x) as -> by congruence end.
    apply andb_true_iff in ET. destruct ET as (T1 & T2). apply is_target_In in T1.
    destruct (get_or_add_rest cip g) as (R1 & R2).
    exists cip, [cip]. split; [apply end_join; [exact SP|split; [exact T1|lia]]|]. split.
    - split; [|split; cbn [set_end add_edge g_edges g_ends map]; rewrite ?R1, ?R2; reflexivity].
      apply (adds_same g (get_or_add cip g)); [apply adds_one|reflexivity|reflexivity].
    - intros x [<- |[]]. exact I. }
  assert (NJ : ~ joins (pr_targets pr) cur cip).
  { intros (J1 & J2). apply is_target_In in J1. rewrite J1 in ET. cbn [andb] in ET. lia. }
  cbv zeta in H.
  destruct (negb (is_control (cell_at code cip))) eqn:EC; [discriminate|].
  destruct (cell_at code cip =? OP_RETN) eqn:ER.
  { match type of H with FEnded ?x = _ => assert (g' = x) as -> by congruence end.
    exists (cip + 1), []. split; [apply end_retn; [exact SP|exact NJ|lia]|]. split; [|intros x []].
    split; [|split; cbn [set_end g_edges g_ends map]; rewrite ?app_nil_r; reflexivity].
    constructor; cbn; intuition. }
  destruct (negb (is_insn pr (cell_at code (cip + 1) / 4))) eqn:EI; [discriminate|].
  assert (J : In (cell_at code (cip + 1) / 4) insns)
    by (apply is_insn_In; destruct (is_insn pr (cell_at code (cip + 1) / 4)); [reflexivity|discriminate]).
  destruct (cell_at code cip =? OP_SWITCH) eqn:ESW.
  { unfold scan_switch in H.
    destruct (negb (is_insn pr (cell_at code (cip + 1) / 4))); [discriminate|].
    destruct (negb (cell_at code (cell_at code (cip + 1) / 4) =? OP_CASETBL)) eqn:E1; [discriminate|].
    cbv zeta in H.
    destruct (code_cells code <? _) eqn:E2; [discriminate|].
    destruct (add_cases strict pr cur (table_offsets code (cell_at code (cip + 1) / 4)) g) as [|g1| |] eqn:EA;
      try discriminate.
    apply add_cases_graph in EA. destruct EA as (A & FA & E & N).
    assert (g' = set_end cur (cip + opcode_size OP_SWITCH) g1) as -> by congruence.
    exists (cip + 2), (map (fun o => o / 4) (table_offsets code (cell_at code (cip + 1) / 4))).
    split; [apply end_switch; [exact SP|exact NJ|lia|lia]|]. split.
    - split; [apply (adds_same g g1); [exact A|reflexivity|reflexivity]|]. cbn [set_end g_edges g_ends]. rewrite E, N. split; reflexivity.
    - intros x Hx. apply in_map_iff in Hx. destruct Hx as (o & <- & Ho). rewrite Forall_forall in FA. exact (FA o Ho). }
  assert (IJ : is_jump (cell_at code cip) = true).
  { unfold is_control in EC. destruct (is_jump (cell_at code cip)); [reflexivity|lia]. }
  destruct (strict && negb (is_target pr (cell_at code (cip + 1) / 4))); [discriminate|].
  set (t := cell_at code (cip + 1) / 4) in *.
  destruct (get_or_add_rest t g) as (R1 & R2).
  destruct (cell_at code cip =? OP_JUMP) eqn:EJ.
  { match type of H with FEnded ?x = _ => assert (g' = x) as -> by congruence end.
    exists (cip + 2), [t]. split; [apply end_jump; [exact SP|exact NJ|lia]|]. split.
    - split; [apply (adds_same g (get_or_add t g)); [apply adds_one|reflexivity|reflexivity]|].
      cbn [set_end add_edge g_edges g_ends map]. rewrite R1, R2. split; reflexivity.
    - intros x [<- |[]]. exact J. }
  destruct (pr_stop pr <? cip + 2 + 1) eqn:EN; [discriminate|].
  assert (SZ : insn_size code cip = 2).
  { unfold insn_size. pose proof (is_jump_switch _ IJ).
    destruct (cell_at code cip =? OP_CASETBL) eqn:E; [lia|]. exact (is_jump_size _ IJ). }
  assert (I2 : In (cip + 2) insns).
  { destruct PI as (_ & P & _). destruct (P cip I) as (_ & [Q|Q]); rewrite SZ in Q; [exact Q|lia]. }
  match type of H with FEnded ?x = _ => assert (g' = x) as -> by congruence end.
  destruct (get_or_add_rest (cip + 2) (get_or_add t g)) as (R3 & R4).
  exists (cip + 2), [cip + 2; t]. split; [apply end_cond; [exact SP|exact NJ|exact IJ|lia]|]. split.
  - split.
    + apply (adds_same g (get_or_add (cip + 2) (get_or_add t g))); [|reflexivity|reflexivity].
      apply (adds_perm g _ ([t] ++ [cip + 2])); [exact (adds_trans _ _ _ _ _ (adds_one t g) (adds_one (cip + 2) _))|].
      intro x. cbn. tauto.
    + cbn [set_end add_edge g_edges g_ends map]. rewrite R3, R4, R1, R2, <- app_assoc. split; reflexivity.
  - intros x [<- |[<- |[]]]; assumption.
Qed.

Lemma g_succ_app g g' es x : g_edges g' = g_edges g ++ es ->
  g_succ g' x = g_succ g x ++ map snd (filter (fun e => fst e =? x) es).
Proof. intro E. unfold g_succ. rewrite E, filter_app, map_app. reflexivity. Qed.

Lemma g_succ_from (cur : Z) (ss : list Z) x : map snd (filter (fun e => fst e =? x) (map (fun s => (cur, s)) ss)) = if cur =? x then ss else [].
Proof.
  induction ss as [|s ss IH]; cbn; [destruct (cur =? x); reflexivity|].
  destruct (cur =? x) eqn:E; cbn; rewrite IH; reflexivity.
Qed.

Lemma in_g_succ g a b : In b (g_succ g a) <-> In (a, b) (g_edges g).
Proof.
  unfold g_succ. rewrite in_map_iff. split.
  - intros ((x & y) & E & H). apply filter_In in H. cbn in *. destruct H as (H & Q). subst y. assert (x = a) as -> by lia. exact H.
  - intro H. exists (a, b). split; [reflexivity|]. apply filter_In. split; [exact H|cbn; apply Z.eqb_refl].
Qed.

Lemma in_g_pred g a b : In a (g_pred g b) <-> In (a, b) (g_edges g).
Proof.
  unfold g_pred. rewrite in_map_iff. split.
  - intros ((x & y) & E & H). apply filter_In in H. cbn in *. destruct H as (H & Q). subst x. assert (y = b) as -> by lia. exact H.
  - intro H. exists (a, b). split; [reflexivity|]. apply filter_In. split; [exact H|cbn; apply Z.eqb_refl].
Qed.

Lemma reachable_mono s s' b : (forall x y, In y (s x) -> In y (s' x)) -> reachable start s b -> reachable start s' b.
Proof.
  intros I (l & P). exists l. induction P; [constructor|]. econstructor; eauto.
Qed.

(* The state of the scan between blocks: [cur] is being scanned. *)
Record ginv (cur : Z) (g : graph) : Prop := {
  gi_known : NoDup (start :: g_known g);
  gi_insn : incl (g_known g) insns;
  gi_queue : NoDup (cur :: g_queue g);
  gi_cur : In cur (start :: g_known g);
  gi_qin : incl (g_queue g) (g_known g);
  gi_ends : NoDup (map fst (g_ends g));
  gi_split : forall b, In b (start :: g_known g) <-> b = cur \/ In b (g_queue g) \/ In b (map fst (g_ends g));
  gi_apart : forall b, In b (map fst (g_ends g)) -> b <> cur /\ ~ In b (g_queue g);
  gi_fin : forall b e, In (b, e) (g_ends g) -> fin_block b e (g_succ g b);
  gi_edge : forall a b, In (a, b) (g_edges g) -> In a (map fst (g_ends g)) /\ In b (g_known g);
  gi_reach : forall b, In b (start :: g_known g) -> reachable start (g_succ g) b }.

Hypothesis START : ~ In start insns.

Lemma nil_succ g a : (forall b, ~ In (a, b) (g_edges g)) -> g_succ g a = [].
Proof.
  intro H. destruct (g_succ g a) as [|b l] eqn:E; [reflexivity|]. destruct (H b). apply in_g_succ. rewrite E. left. reflexivity.
Qed.

(* After a block is finished, before the next is taken. *)
Record gmid (g : graph) : Prop := {
  gm_known : NoDup (start :: g_known g);
  gm_insn : incl (g_known g) insns;
  gm_queue : NoDup (g_queue g);
  gm_qin : incl (g_queue g) (g_known g);
  gm_ends : NoDup (map fst (g_ends g));
  gm_split : forall b, In b (start :: g_known g) <-> In b (g_queue g) \/ In b (map fst (g_ends g));
  gm_apart : forall b, In b (map fst (g_ends g)) -> ~ In b (g_queue g);
  gm_fin : forall b e, In (b, e) (g_ends g) -> fin_block b e (g_succ g b);
  gm_edge : forall a b, In (a, b) (g_edges g) -> In a (map fst (g_ends g)) /\ In b (g_known g);
  gm_reach : forall b, In b (start :: g_known g) -> reachable start (g_succ g) b }.

Lemma finish_block cur e ss g g' : ginv cur g -> fin_block cur e ss -> step_to cur e ss g g' -> incl ss insns -> gmid g'.
Proof.
  intros [K1 K2 K3 K4 K5 K6 K7 K8 K9 K10 K11] FB (AD & EE & EN) IS. destruct AD as [A1 A2 A3 A4].
  assert (NS : ~ In start ss) by (intro Q; apply START, IS, Q).
  inversion K1 as [|? ? NK K1']; subst. inversion K3 as [|? ? NQ K3']; subst.
  assert (NCE : ~ In cur (map fst (g_ends g))) by (intro Q; apply K8 in Q; destruct Q; congruence).
  assert (SC : g_succ g cur = []) by (apply nil_succ; intros b Q; apply K10 in Q; destruct Q; contradiction).
  assert (GS : forall x, g_succ g' x = if cur =? x then ss else g_succ g x).
  { intro x. rewrite (g_succ_app g g' _ x EE), g_succ_from. destruct (Z.eqb_spec cur x) as [<- |]; [rewrite SC; reflexivity|apply app_nil_r]. }
  assert (MO : forall x y, In y (g_succ g x) -> In y (g_succ g' x)).
  { intros x y. rewrite GS. destruct (Z.eqb_spec cur x) as [<- |]; [rewrite SC; intros []|tauto]. }
  assert (KN : forall x, In x (start :: g_known g') <-> In x (start :: g_known g) \/ In x ss).
  { intro x. cbn [In]. rewrite A1. tauto. }
  constructor.
  - constructor; [|apply A3; exact K1']. intro Q. apply A1 in Q. destruct Q; contradiction.
  - intros x Hx. apply A1 in Hx. destruct Hx; auto.
  - apply A4; assumption.
  - intros x Hx. apply A1. apply A2 in Hx. destruct Hx as [Hx|(Hx & _)]; auto.
  - rewrite EN. cbn [map fst]. constructor; assumption.
  - intro b. rewrite KN, K7, A2, EN. cbn [map fst In].
    destruct (in_dec Z.eq_dec b (g_known g)) as [Q|Q].
    + assert (In b (start :: g_known g)) as W by (right; exact Q). apply K7 in W.
      split; intros; repeat match goal with H : _ \/ _ |- _ => destruct H end; subst; tauto.
    + split; intros V; repeat match goal with H : _ \/ _ |- _ => destruct H | H : _ /\ _ |- _ => destruct H end; subst; tauto.
  - rewrite EN. cbn [map fst In]. intros b Hb Hq. apply A2 in Hq. destruct Hb as [<- |Hb].
    + destruct Hq as [Hq|(Hs & Hk)]; [contradiction|].
      destruct K4 as [Q|Q]; [subst cur; contradiction|contradiction].
    + destruct (K8 b Hb) as (_ & NQb). destruct Hq as [Hq|(Hs & Hk)]; [contradiction|].
      assert (In b (start :: g_known g)) as [W|W] by (apply K7; auto); [subst b; contradiction|contradiction].
  - rewrite EN. intros b e' [Q|Q].
    + injection Q as <- <-. rewrite GS, Z.eqb_refl. exact FB.
    + rewrite GS. destruct (Z.eqb_spec cur b) as [<- |]; [|apply K9; exact Q].
      destruct NCE. apply in_map_iff. exists (cur, e'). auto.
  - rewrite EE, EN. intros a b Hab. apply in_app_or in Hab. cbn [map fst In]. rewrite A1. destruct Hab as [Hab|Hab].
    + destruct (K10 a b Hab). auto.
    + apply in_map_iff in Hab. destruct Hab as (s & Q & Hs). injection Q as <- <-. auto.
  - intros b Hb. apply KN in Hb. destruct Hb as [Hb|Hb].
    + apply (reachable_mono (g_succ g)); [exact MO|]. apply K11. exact Hb.
    + destruct (reachable_mono (g_succ g) (g_succ g') cur MO (K11 cur K4)) as (l & P).
      exists (b :: l). econstructor; [exact P|]. rewrite GS, Z.eqb_refl. exact Hb.
Qed.

Lemma take_block g b q : gmid g -> g_queue g = b :: q -> ginv b (mkGraph (g_known g) (g_edges g) (g_ends g) q).
Proof.
  intros [K1 K2 K3 K4 K5 K6 K7 K8 K9 K10] E. rewrite E in *.
  constructor; cbn [g_known g_edges g_ends g_queue]; try assumption.
  - right. apply K4. left. reflexivity.
  - intros x Hx. apply K4. right. exact Hx.
  - intro x. rewrite K6. cbn [In]. split; intros; repeat match goal with H : _ \/ _ |- _ => destruct H end; subst; tauto.
  - intros x Hx. specialize (K7 x Hx). cbn [In] in K7. split; [intros ->; apply K7; left; reflexivity|tauto].
Qed.

Lemma scan_loop_graph fuel : forall cur cip g g',
  scan_loop strict code pr fuel cur cip g = CGood g' ->
  In cip insns \/ cip = pr_stop pr -> spans cur cip -> ginv cur g -> gmid g' /\ g_queue g' = [].
Proof.
  induction fuel as [|f IH]; intros cur cip g g' H IN SP GI; [discriminate|].
  cbn [scan_loop] in H.
  destruct (scan_flow strict code pr cur cip g) as [|g1|e|u] eqn:EF; try discriminate.
  - assert (NJ : ~ joins (pr_targets pr) cur cip).
    { intros (J1 & J2). apply is_target_In in J1. unfold scan_flow in EF. rewrite J1 in EF.
      destruct (stop pr <? cip + 1); [discriminate|]. destruct (strict && negb (is_insn pr cip)); [discriminate|].
      destruct (Z.eqb_spec cur cip); [congruence|]. discriminate. }
    destruct (scan_flow_cont strict code pr cur cip g EF IN) as (I & NC).
    assert (IN' : In (cip + insn_size code cip) insns \/ cip + insn_size code cip = pr_stop pr).
    { destruct PI as (_ & P & _). exact (proj2 (P cip I)). }
    apply (IH _ _ _ _ H IN'); [|exact GI]. apply span_next; assumption.
  - destruct (scan_flow_graph cur cip g g1 EF IN SP) as (e & ss & FB & ST & IS).
    pose proof (finish_block cur e ss g g1 GI FB ST IS) as GM.
    destruct (g_queue g1) as [|b q] eqn:EQ.
    + assert (g' = g1) as -> by congruence. split; assumption.
    + pose proof (take_block g1 b q GM EQ) as GI'.
      assert (KB : In b (g_known g1)) by (apply (gm_qin _ GM); rewrite EQ; left; reflexivity).
      assert (IB : In b insns) by (apply (gm_insn _ GM); exact KB).
      assert (SB : spans b b).
      { assert (F : first_of start b = b).
        { unfold first_of. destruct (Z.eqb_spec b start) as [->|]; [contradiction|reflexivity]. }
        rewrite <- F at 2. apply span_first. }
      apply (IH _ _ _ _ H); [left; exact IB|exact SB|exact GI'].
Qed.

Lemma scan_graph fuel g : scan strict code start pr fuel = CGood g -> blocks_ok code start pr g.
Proof.
  unfold scan. intro H.
  assert (IN : In (start + 1) insns \/ start + 1 = pr_stop pr).
  { destruct PI as (_ & _ & [P|P]); [left; exact P|right; symmetry; exact P]. }
  apply scan_loop_graph in H.
  - destruct H as ([K1 K2 K3 K4 K5 K6 K7 K8 K9 K10] & Q). rewrite Q in *. constructor; try assumption.
    + intros b Hb. assert (W : In b (map fst (g_ends g))) by (apply K6 in Hb; destruct Hb as [[]|Hb]; exact Hb).
      apply in_map_iff in W. destruct W as ((b' & e) & W1 & W2). cbn in W1. subst b'. exists e. auto.
    + intros a b Hb. apply in_g_succ in Hb. destruct (K9 a b Hb) as (V1 & V2). split; [apply K6; right; exact V1|exact V2].
  - exact IN.
  - assert (F : first_of start start = start + 1) by (unfold first_of; rewrite Z.eqb_refl; reflexivity).
    rewrite <- F. apply span_first.
  - constructor; cbn [g_known g_edges g_ends g_queue map In].
    + constructor; [intros []|constructor].
    + intros x [].
    + constructor; [intros []|constructor].
    + left. reflexivity.
    + intros x [].
    + constructor.
    + intro b. cbn. intuition congruence.
    + intros b [].
    + intros b e [].
    + intros a b [].
    + intros b [<- |[]]. exists [start]. constructor.
Qed.

End Scan.

Lemma scan_method_graph strict fuel code m pr g : code_ok code -> scan_method strict fuel code m = CGood (pr, g) -> blocks_ok code m pr g.
Proof.
  intros CO H. unfold scan_method in H. apply cbind_good in H. destruct H as (pr' & P & H).
  apply cbind_good in H. destruct H as (g' & S & H). assert (pr' = pr /\ g' = g) as (-> & ->) by (split; congruence).
  pose proof (prescan_inv strict code m CO fuel pr P) as PI.
  apply (scan_graph strict code m pr PI) in S; [exact S|].
  intro Q. destruct PI as (_ & PI & _). destruct (PI m Q) as (SC & _).
  unfold prescan in P. destruct (code_cells code <? m + 1); [discriminate|].
  destruct (Z.eqb_spec (cell_at code m) OP_PROC) as [E|E]; [|discriminate].
  destruct SC as (SC & _). unfold insn_of, instr_at in SC. tauto.
Qed.

Lemma graph_of_ok code m pr g : blocks_ok code m pr g -> graph_ok m (g_succ g) (g_pred g).
Proof.
  intros [K1 K2 K3 K4 K5 K6]. split; [|split].
  - exists (m :: g_known g). split; [left; reflexivity|]. intros a b _ Hb. right. apply (K5 a b Hb).
  - intros a b. rewrite in_g_succ, in_g_pred. tauto.
  - destruct (g_pred g m) as [|a l] eqn:E; [reflexivity|].
    assert (Q : In a (g_pred g m)) by (rewrite E; left; reflexivity). apply in_g_pred, in_g_succ in Q.
    destruct (K5 a m Q) as (_ & Q'). inversion K1; subst. contradiction.
Qed.

(* --- The analyses --- *)
Lemma before_id l a b : In a l -> In b l -> id_of l a < id_of l b -> before l a b.
Proof.
  induction l as [|x l IH]; intros Ha Hb L; [destruct Ha|]. cbn [id_of] in L.
  destruct (Z.eqb_spec x a) as [->|NA].
  - destruct (Z.eqb_spec a b) as [->|NB]; [lia|]. destruct Hb as [Hb|Hb]; [contradiction|].
    apply in_split in Hb. destruct Hb as (l2 & l3 & ->). exists [], l2, l3. reflexivity.
  - destruct Ha as [Ha|Ha]; [contradiction|]. pose proof (proj1 (id_pos l a) Ha).
    destruct (Z.eqb_spec x b) as [->|NB].
    + destruct (id_of l a) eqn:Q; lia.
    + destruct Hb as [Hb|Hb]; [contradiction|]. pose proof (proj1 (id_pos l b) Hb).
      destruct (IH Ha Hb) as (l1 & l2 & l3 & ->).
      { destruct (id_of l a) eqn:Q1; destruct (id_of l b) eqn:Q2; lia. }
      exists (x :: l1), l2, l3. reflexivity.
Qed.

Definition verdict_ok (entry : Z) (succ : Z -> list Z) (r : cres analysis) : Prop :=
  match r with
  | CGood a => analysed entry succ a /\ ~ irreducible entry succ
  | CBad e => e = INVALID_INSTRUCTION /\ irreducible entry succ
  | _ => False
  end.

Lemma tree_order_ext fuel k k' : (forall x, k x = k' x) -> forall work order, tree_order fuel k work order = tree_order fuel k' work order.
Proof.
  intro E. induction fuel as [|f IH]; intros work order; [reflexivity|]. cbn [tree_order].
  destruct work as [|b w]; [reflexivity|]. rewrite E. apply IH.
Qed.

Lemma analyse_spec entry succ pred : graph_ok entry succ pred ->
  exists n0, forall rounds fuel, (n0 <= rounds)%nat -> (n0 <= fuel)%nat -> verdict_ok entry succ (analyse entry succ pred rounds fuel).
Proof.
  intros (FI & ED & NE).
  destruct (ordering_spec entry succ pred ED NE FI) as (f0 & OS).
  destruct FI as (N & EN & CL).
  set (L := length N).
  exists (f0 + L * L + 2 * L + 2)%nat. intros rounds fuel HR HF.
  destruct (OS fuel ltac:(lia)) as (rpo & par & E1 & OR).
  unfold analyse. rewrite E1. cbn [cbind].
  assert (LR : (length rpo <= L)%nat).
  { apply NoDup_incl_length; [apply (o_nodup _ _ _ _ OR)|]. intros b Hb. apply (o_reach _ _ _ _ OR) in Hb.
    destruct Hb as (l & P). clear - P EN CL. induction P; eauto. }
  destruct (idoms_spec entry succ pred ED NE rpo par OR rounds fuel) as (m & E2 & FX).
  { unfold bound. nia. }
  { nia. }
  rewrite E2. cbn [cbind].
  destruct (link_tree_spec entry succ pred ED NE rpo par OR m FX (rev rpo) [] (fun _ => []) (fun _ => 1) eq_refl) as (kd & num & E3 & K & NU).
  rewrite E3. cbn [cbind].
  assert (NU' : forall u, num u = 1 + sum num (kids rpo m u)) by exact NU.
  assert (K' : forall u, kd u = kids rpo m u) by exact K.
  assert (Ie : In entry rpo) by (exact (entry_in entry succ rpo par OR)).
  assert (PL : (length (preord rpo m entry) <= length rpo)%nat).
  { apply NoDup_incl_length; [exact (pre_nodup entry succ pred ED NE rpo par OR m FX entry Ie)|].
    intros b Hb. apply (pre_in entry succ pred ED NE rpo par OR m FX entry Ie) in Hb. apply Hb. }
  rewrite (tree_order_ext fuel kd (kids rpo m) K').
  rewrite (tree_order_spec entry succ pred ED NE rpo par OR m FX).
  2:{ cbn [flat_map]. rewrite app_nil_r. nia. }
  cbn [cbind flat_map]. rewrite !app_nil_r.
  pose proof (dominates_spec entry succ pred ED NE rpo par OR m FX num NU') as DS.
  pose proof (loop_headers_spec entry succ pred ED NE rpo par OR m FX num (rev (preord rpo m entry)) DS rpo [] (incl_refl _)) as LH.
  destruct (loop_headers succ rpo (rev (preord rpo m entry)) num rpo []) as [hs|].
  - destruct LH as (H1 & H2). split.
    + assert (RE := o_reach _ _ _ _ OR). constructor; cbn [an_rpo an_idom an_order an_num an_headers].
      * apply (o_nodup _ _ _ _ OR).
      * exact RE.
      * intros p b Hp Hb NB. apply RE in Hp. pose proof (succ_in entry succ rpo par OR p b Hp Hb) as Ib.
        apply before_id; [assumption..|]. destruct (H2 p b Hp Hb) as [Q|Q]; [exact Q|]. destruct NB. split; assumption.
      * destruct FX as (G & _). apply (g_entry _ _ _ _ _ G).
      * intros b Hb NB. apply RE in Hb. destruct FX as (G & F & X). destruct (m b) as [d|] eqn:Q; [|destruct (F b Hb Q)].
        exists d. split; [reflexivity|].
        destruct (fixed_idom entry succ pred ED NE rpo par OR m b d (conj G (conj F X)) Q) as (_ & _ & _ & [(W & _)|(_ & W & _)]); [contradiction|exact W].
      * intros p b Hp Hb. apply RE in Hp, Hb. exact (DS p b Hp Hb).
      * intro h. rewrite H1. split.
        -- intros [[]|(b & Hb & E & D)]. exists b. split; assumption.
        -- intros (b & E & D). right. exists b. split; [|split; assumption]. apply RE. apply D.
    + exact (reducible_ids entry succ rpo par OR H2).
  - split; [reflexivity|]. destruct LH as (b & c & Hb & Hc & L1 & ND).
    exact (retreat_irreducible entry succ pred ED NE rpo par OR m FX b c Hb Hc L1 ND).
Qed.

(* --- More fuel changes nothing --- *)
Definition le_res {A} (r r' : cres A) : Prop := r = CLoop \/ r = r'.

Lemma le_refl {A} (r : cres A) : le_res r r.
Proof. right. reflexivity. Qed.

Lemma le_bind {A B} (r r' : cres A) (k k' : A -> cres B) : le_res r r' -> (forall a, le_res (k a) (k' a)) -> le_res (cbind r k) (cbind r' k').
Proof. intros [->| <-] K; [left; reflexivity|]. destruct r; cbn; [apply K|right; reflexivity..]. Qed.

Lemma prescan_loop_mono strict code m f : forall f' cip i t, (f <= f')%nat ->
  le_res (prescan_loop strict code m f cip i t) (prescan_loop strict code m f' cip i t).
Proof.
  induction f as [|f IH]; intros f' cip i t L; [left; reflexivity|]. destruct f' as [|f']; [lia|].
  cbn [prescan_loop]. destruct (code_cells code <? cip + 1); [apply le_refl|]. destruct (cip <? 0); [apply le_refl|].
  cbv zeta. destruct ((cell_at code cip =? OP_PROC) || (cell_at code cip =? OP_ENDPROC)); [apply le_refl|].
  destruct ((cell_at code cip <=? 0) || (OPCODES_LAST <=? cell_at code cip)); [apply le_refl|].
  apply le_bind; [apply le_refl|]. intros (c1 & params).
  destruct (strict && (params <? 0)); [apply le_refl|]. destruct (code_cells code <? c1 + params); [apply le_refl|].
  apply le_bind; [apply le_refl|]. intro ts. apply IH. lia.
Qed.

Lemma scan_loop_mono strict code pr f : forall f' cur cip g, (f <= f')%nat ->
  le_res (scan_loop strict code pr f cur cip g) (scan_loop strict code pr f' cur cip g).
Proof.
  induction f as [|f IH]; intros f' cur cip g L; [left; reflexivity|]. destruct f' as [|f']; [lia|].
  cbn [scan_loop]. destruct (scan_flow strict code pr cur cip g) as [|g1|e|u]; [apply IH; lia| |apply le_refl..].
  destruct (g_queue g1); [apply le_refl|apply IH; lia].
Qed.

Lemma scan_method_mono strict code m f f' : (f <= f')%nat -> le_res (scan_method strict f code m) (scan_method strict f' code m).
Proof.
  intro L. unfold scan_method, prescan. apply le_bind.
  - destruct (code_cells code <? m + 1); [apply le_refl|]. destruct (negb (cell_at code m =? OP_PROC)); [apply le_refl|].
    apply prescan_loop_mono. exact L.
  - intro pr. apply le_bind; [|intro; apply le_refl]. apply scan_loop_mono. exact L.
Qed.

Lemma dfs_mono succ f : forall f' w v p, (f <= f')%nat -> le_res (dfs succ f w v p) (dfs succ f' w v p).
Proof.
  induction f as [|f IH]; intros f' w v p L; [left; reflexivity|]. destruct f' as [|f']; [lia|].
  cbn [dfs]. destruct w as [|(b & [|c r]) w]; [apply le_refl|apply IH; lia|].
  destruct (mem_z c v); [apply IH; lia|]. destruct (succ c); apply IH; lia.
Qed.

Lemma intersect_mono rpo m f : forall f' a b, (f <= f')%nat -> le_res (intersect rpo f m a b) (intersect rpo f' m a b).
Proof.
  induction f as [|f IH]; intros f' a b L; [left; reflexivity|]. destruct f' as [|f']; [lia|].
  cbn [intersect]. destruct (a =? b); [apply le_refl|].
  destruct (id_of rpo b <? id_of rpo a); [destruct (m a); [apply IH; lia|apply le_refl]|].
  destruct (id_of rpo a <? id_of rpo b); [destruct (m b); [apply IH; lia|apply le_refl]|apply le_refl].
Qed.

Lemma candidate_mono rpo m f f' : (f <= f')%nat -> forall ps d, le_res (candidate rpo f m ps d) (candidate rpo f' m ps d).
Proof.
  intro L. induction ps as [|q ps IH]; intro d; cbn [candidate]; [apply le_refl|].
  destruct (m q); [|apply IH]. destruct d as [d|]; [|apply IH].
  apply le_bind; [apply intersect_mono; exact L|intro; apply IH].
Qed.

Lemma dom_pass_mono pred rpo f f' : (f <= f')%nat -> forall bs m c, le_res (dom_pass pred rpo f bs m c) (dom_pass pred rpo f' bs m c).
Proof.
  intro L. induction bs as [|b bs IH]; intros m c; cbn [dom_pass]; [apply le_refl|].
  destruct (pred b); [apply IH|]. apply le_bind; [apply candidate_mono; exact L|].
  intros [d|]; [|apply le_refl]. destruct (m b) as [d0|]; [destruct (d =? d0)|]; apply IH.
Qed.

Lemma dom_rounds_mono pred rpo f f' : (f <= f')%nat -> forall r r' m, (r <= r')%nat ->
  le_res (dom_rounds pred rpo r f m) (dom_rounds pred rpo r' f' m).
Proof.
  intro L. induction r as [|r IH]; intros r' m Lr; [left; reflexivity|]. destruct r' as [|r']; [lia|]. cbn [dom_rounds].
  apply le_bind; [apply dom_pass_mono; exact L|]. intros (m' & c). destruct c; [apply IH; lia|apply le_refl].
Qed.

Lemma tree_order_mono k f : forall f' w o, (f <= f')%nat -> le_res (tree_order f k w o) (tree_order f' k w o).
Proof.
  induction f as [|f IH]; intros f' w o L; [left; reflexivity|]. destruct f' as [|f']; [lia|].
  cbn [tree_order]. destruct w; [apply le_refl|apply IH; lia].
Qed.

Lemma analyse_mono entry succ pred r r' f f' : (r <= r')%nat -> (f <= f')%nat ->
  le_res (analyse entry succ pred r f) (analyse entry succ pred r' f').
Proof.
  intros Lr Lf. unfold analyse. apply le_bind; [apply dfs_mono; exact Lf|]. intro rpo.
  apply le_bind; [apply dom_rounds_mono; assumption|]. intro m.
  apply le_bind; [apply le_refl|]. intros (k & n).
  apply le_bind; [apply tree_order_mono; exact Lf|]. intro o. apply le_refl.
Qed.

(* Whatever the fuel, the outcome is right or the fuel ran out. *)
Lemma analyse_any entry succ pred rounds fuel : graph_ok entry succ pred ->
  analyse entry succ pred rounds fuel <> CLoop -> verdict_ok entry succ (analyse entry succ pred rounds fuel).
Proof.
  intros G N. destruct (analyse_spec entry succ pred G) as (n0 & H).
  specialize (H (n0 + rounds)%nat (n0 + fuel)%nat ltac:(lia) ltac:(lia)).
  destruct (analyse_mono entry succ pred rounds (n0 + rounds) fuel (n0 + fuel) ltac:(lia) ltac:(lia)) as [Q|Q]; [contradiction|].
  rewrite Q. exact H.
Qed.

Lemma build_good strict rounds fuel code m pr g a : code_ok code -> build strict rounds fuel code m = CGood (pr, g, a) ->
  blocks_ok code m pr g /\ analysed m (g_succ g) a /\ ~ irreducible m (g_succ g).
Proof.
  intros CO H. unfold build in H. apply cbind_good in H. destruct H as ((pr' & g') & S & H).
  apply cbind_good in H. destruct H as (a' & A & H).
  assert (pr' = pr /\ g' = g /\ a' = a) as (-> & -> & ->) by (repeat split; congruence).
  pose proof (scan_method_graph strict fuel code m pr g CO S) as B.
  split; [exact B|]. pose proof (analyse_any m (g_succ g) (g_pred g) rounds fuel (graph_of_ok _ _ _ _ B)) as V.
  rewrite A in V. apply V. discriminate.
Qed.

Lemma build_rejects strict rounds fuel code m pr g : code_ok code -> scan_method strict fuel code m = CGood (pr, g) ->
  build strict rounds fuel code m <> CLoop ->
  (build strict rounds fuel code m = CBad INVALID_INSTRUCTION <-> irreducible m (g_succ g)).
Proof.
  intros CO S N. pose proof (scan_method_graph strict fuel code m pr g CO S) as B.
  unfold build in *. rewrite S in *. cbn [cbind] in *.
  pose proof (analyse_any m (g_succ g) (g_pred g) rounds fuel (graph_of_ok _ _ _ _ B)) as V.
  destruct (analyse m (g_succ g) (g_pred g) rounds fuel) as [a|e|u|] eqn:A; cbn [cbind] in *.
  - destruct (V ltac:(discriminate)) as (_ & V2). split; [discriminate|contradiction].
  - destruct (V ltac:(discriminate)) as (-> & V2). split; [intro; exact V2|reflexivity].
  - destruct (V ltac:(discriminate)).
  - contradiction.
Qed.

(* Building the graph finishes and reads only the code. *)
Lemma build_total strict code m : code_ok code -> 0 <= m -> counts_ok code m ->
  exists n0, forall rounds fuel, (n0 <= rounds)%nat -> (n0 <= fuel)%nat -> sane (build strict rounds fuel code m).
Proof.
  intros CO M CK. set (F := ((length code + 2) * (length code + 2))%nat).
  pose proof (scan_method_total strict code m CO M CK F (le_n _)) as S.
  assert (SM : forall fuel, (F <= fuel)%nat -> scan_method strict fuel code m = scan_method strict F code m).
  { intros fuel L. destruct (scan_method_mono strict code m F fuel L) as [Q|Q]; [rewrite Q in S; destruct S|congruence]. }
  destruct (scan_method strict F code m) as [(pr & g)|e|u|] eqn:E.
  - pose proof (scan_method_graph strict F code m pr g CO E) as B.
    destruct (analyse_spec m (g_succ g) (g_pred g) (graph_of_ok _ _ _ _ B)) as (n1 & H).
    exists (n1 + F)%nat. intros rounds fuel HR HF. unfold build. rewrite SM by lia. cbn [cbind].
    specialize (H rounds fuel ltac:(lia) ltac:(lia)).
    destruct (analyse m (g_succ g) (g_pred g) rounds fuel); cbn in *; auto. destruct H.
  - exists F. intros rounds fuel HR HF. unfold build. rewrite SM by lia. exact I.
  - exists F. intros rounds fuel HR HF. unfold build. rewrite SM by lia. exact S.
  - destruct S.
Qed.

(* --- Examples --- *)
Lemma tour_built : exists pr g a, build true 50 50 tour 0 = CGood (pr, g, a) /\
  g_edges g = [(0, 1); (1, 3); (1, 12); (3, 12); (3, 1)] /\ an_rpo a = [0; 1; 3; 12] /\
  map (an_idom a) [1; 3; 12] = [Some 0; Some 1; Some 1] /\ an_headers a = [1].
Proof.
  destruct (build true 50 50 tour 0) as [((pr & g) & a)|e|u|] eqn:E.
  - exists pr, g, a. split; [reflexivity|].
    assert (Q : match build true 50 50 tour 0 with CGood (_, g, a) => Some (g_edges g, an_rpo a, map (an_idom a) [1; 3; 12], an_headers a) | _ => None end
                = Some ([(0, 1); (1, 3); (1, 12); (3, 12); (3, 1)], [0; 1; 3; 12], [Some 0; Some 1; Some 1], [1])) by (vm_compute; reflexivity).
    rewrite E in Q. assert (W : forall A B C D (a a' : A) (b b' : B) (c c' : C) (d d' : D), Some (a, b, c, d) = Some (a', b', c', d') -> a = a' /\ b = b' /\ c = c' /\ d = d') by (intros; repeat split; congruence).
    exact (W _ _ _ _ _ _ _ _ _ _ _ _ Q).
  - exfalso. assert (Q : match build true 50 50 tour 0 with CBad _ => false | _ => true end = true) by (vm_compute; reflexivity). rewrite E in Q. discriminate.
  - exfalso. assert (Q : match build true 50 50 tour 0 with CUndef _ => false | _ => true end = true) by (vm_compute; reflexivity). rewrite E in Q. discriminate.
  - exfalso. assert (Q : match build true 50 50 tour 0 with CLoop => false | _ => true end = true) by (vm_compute; reflexivity). rewrite E in Q. discriminate.
Qed.

(* Two blocks jumping to each other, both entered from outside. *)
Definition two_doors : list Z := [46; 53; 20; 51; 20; 51; 12].
Lemma two_doors_rejected : code_ok two_doors /\ build true 50 50 two_doors 0 = CBad INVALID_INSTRUCTION.
Proof.
  split; [|vm_compute; reflexivity]. split; [|unfold two31; cbn; lia].
  unfold two_doors, is_i32, two31. repeat (apply Forall_cons; [lia|]). apply Forall_nil.
Qed.

Lemma build_finishes strict code m : code_ok code -> 0 <= m -> counts_ok code m ->
  exists n, forall rounds fuel, (n <= rounds)%nat -> (n <= fuel)%nat ->
  build strict rounds fuel code m <> CLoop /\ build strict rounds fuel code m <> CUndef UBMem.
Proof.
  intros CO M CK. destruct (build_total strict code m CO M CK) as (n & H). exists n. intros rounds fuel HR HF.
  specialize (H rounds fuel HR HF). split; intro E; rewrite E in H; exact H.
Qed.
