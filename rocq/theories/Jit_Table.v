(* The linked case tables hold the addresses of the cases' blocks, where no two cases share one: C46. *)
From Verif Require Import Base Rtti_Model Rt_Model Array_Model Interp_Model Rt_Spec Mem_Spec Cfg_Model Cfg_Spec Dom_Model Dom_Spec X64_Model X64_Spec Jit_Model Jit_Spec.
From Verif Require Import Base_Proofs Cfg_Proofs Dom_Proofs Dom_Build Jit_Proofs.
From Verif Require Ver_Proofs.
From Coq Require Import ZifyBool Lia.
Ltac Zify.zify_post_hook ::= idtac.

(* ---- The address table ---- *)
Definition emits (l : list aop) : list Z := flat_map (fun o => match o with AEmit t => [t] | ABind _ => [] end) l.
Definition binds (l : list aop) : list Z := flat_map (fun o => match o with AEmit _ => [] | ABind b => [b] end) l.
Definition slot (bs : list Z) (t : Z) : option Z := if existsb (Z.eqb t) bs then Some t else None.
Fixpoint index (t : Z) (l : list Z) : option nat :=
  match l with [] => None | x :: r => if x =? t then Some 0%nat else option_map Datatypes.S (index t r) end.

Lemma exb t l : existsb (Z.eqb t) l = true <-> In t l.
Proof. rewrite existsb_exists. split; [intros (x & I0 & E); apply Z.eqb_eq in E; now subst|intros I0; exists t; split; [exact I0|apply Z.eqb_refl]]. Qed.
Lemma slot_in bs t : In t bs -> slot bs t = Some t. Proof. intros H. unfold slot. now rewrite (proj2 (exb t bs) H). Qed.
Lemma slot_out bs t : ~ In t bs -> slot bs t = None.
Proof. intros H. unfold slot. destruct (existsb (Z.eqb t) bs) eqn:E; [apply exb in E; contradiction|reflexivity]. Qed.
Lemma slot_more bs b t : t <> b -> slot (bs ++ [b]) t = slot bs t.
Proof.
  intros N. unfold slot. rewrite existsb_app. cbn [existsb]. destruct (Z.eqb_spec t b); [contradiction|]. now rewrite orb_false_r.
Qed.
Lemma index_none t l : index t l = None <-> ~ In t l.
Proof.
  induction l as [|x l IH]; cbn [index In]; [tauto|]. destruct (Z.eqb_spec x t) as [->|N]; [split; [discriminate|tauto]|].
  destruct (index t l); cbn [option_map]; [split; [discriminate|]|tauto]. intros H. exfalso. apply H. right. destruct (in_dec Z.eq_dec t l) as [I0|NI]; [exact I0|].
  destruct IH as [_ IH]. discriminate (IH NI).
Qed.
Lemma index_app t l x : index t (l ++ [x]) = match index t l with Some k => Some k | None => if x =? t then Some (length l) else None end.
Proof.
  induction l as [|y l IH]; cbn [index app length]; [destruct (x =? t); reflexivity|]. destruct (y =? t); [reflexivity|]. rewrite IH.
  destruct (index t l); cbn [option_map]; [reflexivity|]. destruct (x =? t); reflexivity.
Qed.
Lemma fill_map f b : forall E k, NoDup E -> index b E = Some k ->
  fill k (Some b) (map (slot f) E) = map (slot (f ++ [b])) E.
Proof.
  induction E as [|x E IH]; intros k N H; [discriminate H|]. inversion N as [|? ? NI N']; subst. cbn [index] in H. cbn [map].
  destruct (Z.eqb_spec x b) as [->|NE].
  - injection H as <-. cbn [fill]. rewrite slot_in by (apply in_or_app; right; now left). f_equal. apply map_ext_in. intros t T.
    symmetry. apply slot_more. intros ->. contradiction.
  - destruct (index b E) as [k'|] eqn:X; [|discriminate H]. injection H as <-. cbn [fill]. rewrite slot_more by exact NE. f_equal. now apply IH.
Qed.

Lemma emits_app l l' : emits (l ++ l') = emits l ++ emits l'. Proof. apply flat_map_app. Qed.
Lemma binds_app l l' : binds (l ++ l') = binds l ++ binds l'. Proof. apply flat_map_app. Qed.
Lemma performed l : NoDup (emits l) -> NoDup (binds l) ->
  a_slots (perform l) = map (slot (binds l)) (emits l) /\ (forall t, In t (a_bound (perform l)) <-> In t (binds l)) /\
  (forall t, ~ In t (binds l) -> a_use (perform l) t = index t (emits l)).
Proof.
  induction l as [|o l IH] using rev_ind; intros NE NB.
  - cbn. repeat split; auto; tauto.
  - unfold perform in *. rewrite fold_left_app. cbn [fold_left]. set (a := fold_left aperform l _) in *.
    rewrite emits_app, binds_app in *. destruct o as [t|b]; cbn [aperform emits binds flat_map app] in *; rewrite ?app_nil_r in *.
    + apply NoDup_remove in NE. rewrite app_nil_r in NE. destruct NE as [NE NI]. destruct (IH NE NB) as (S1 & S2 & S3).
      destruct (existsb (Z.eqb t) (a_bound a)) eqn:X; cbn [a_slots a_bound a_use].
      * apply exb, S2 in X. split; [|split; [exact S2|]].
        -- rewrite map_app, S1. cbn [map]. now rewrite (slot_in _ _ X).
        -- intros u U. rewrite (S3 u U), index_app. destruct (index u (emits l)); [reflexivity|]. destruct (Z.eqb_spec t u) as [->|]; [contradiction|reflexivity].
      * assert (NB' : ~ In t (binds l)) by (intros H; apply S2, exb in H; congruence). split; [|split; [exact S2|]].
        -- rewrite map_app, S1. cbn [map]. now rewrite (slot_out _ _ NB').
        -- intros u U. rewrite index_app. destruct (Z.eqb_spec u t) as [->|NU].
           ++ rewrite (proj2 (index_none t (emits l)) NI), Z.eqb_refl, S1, map_length. reflexivity.
           ++ rewrite (S3 u U). destruct (index u (emits l)); [reflexivity|]. destruct (Z.eqb_spec t u); [congruence|reflexivity].
    + apply NoDup_remove in NB. rewrite app_nil_r in NB. destruct NB as [NB NI]. destruct (IH NE NB) as (S1 & S2 & S3). cbn [a_slots a_bound a_use].
      split; [|split].
      * rewrite (S3 b NI). destruct (index b (emits l)) as [k|] eqn:X; rewrite S1; [now apply fill_map|].
        apply map_ext_in. intros t T. symmetry. apply slot_more. intros ->. apply index_none in X. contradiction.
      * intros t. rewrite in_app_iff. cbn [In]. rewrite S2. tauto.
      * intros t T. apply S3. intros H. apply T, in_or_app. now left.
Qed.

Lemma all_filled l : NoDup (emits l) -> NoDup (binds l) -> incl (emits l) (binds l) -> a_slots (perform l) = map Some (emits l).
Proof.
  intros NE NB I0. destruct (performed l NE NB) as (-> & _). apply map_ext_in. intros t T. apply slot_in. now apply I0.
Qed.

Lemma nodup_flat {A B} (f : A -> list B) : forall l, NoDup l -> (forall x, In x l -> NoDup (f x)) ->
  (forall x y t, In x l -> In y l -> In t (f x) -> In t (f y) -> x = y) -> NoDup (flat_map f l).
Proof.
  induction l as [|x l IH]; intros N F D; [constructor|]. inversion N as [|? ? NI N']; subst. cbn [flat_map].
  assert (TL : NoDup (flat_map f l)). { apply IH; [exact N'|intros; apply F; now right|]. intros y z t Y Z0. apply D; now right. }
  assert (DJ : forall t, In t (f x) -> ~ In t (flat_map f l)).
  { intros t T H. apply in_flat_map in H. destruct H as (y & Y & T'). apply NI. rewrite (D x y t); auto; [now left|now right]. }
  clear - F TL DJ. assert (FX : NoDup (f x)) by (apply F; now left). revert FX DJ. induction (f x) as [|t r IH]; intros FX DJ; [exact TL|].
  inversion FX as [|? ? NI N']; subst. cbn [app]. constructor.
  - rewrite in_app_iff. intros [H|H]; [contradiction|]. exact (DJ t (or_introl eq_refl) H).
  - apply IH; [exact N'|]. intros u U. apply DJ. now right.
Qed.

Section Method.
Variables (strict : bool) (rounds fuel : nat) (code : list Z) (m : Z) (pr : pre) (g : graph) (an : analysis).
Hypothesis CO : code_ok code.
Hypothesis CK : counts_ok code m.
Hypothesis BU : build strict rounds fuel code m = CGood (pr, g, an).
Hypothesis AC : accepted code m.
Hypothesis BO : blocks_ok code m pr g.
Hypothesis AN : analysed m (g_succ g) an.
Hypothesis UN : unshared code m.
Notation rpo := (an_rpo an).
Notation span := (span code m (pr_targets pr)).
Notation joins := (joins (pr_targets pr)).
Notation blocks := (m :: g_known g).
Local Notation the_end := (the_end code m pr g BO).
Local Notation succ_known := (succ_known code m pr g BO).

(* ---- Blocks are reached ---- *)
Lemma span_reach b c : reaches code m (first_of m b) -> span b c -> reaches code m c.
Proof.
  intros R0. induction 1 as [|c S IH NJ NC]; [exact R0|]. apply reach_fall; [exact IH|].
  apply (not_stop_falls code m (pr_targets pr) b CO AC c IH). intros [J|C]; [contradiction|congruence].
Qed.
Lemma in_offsets k : forall pos o, In o (case_offsets code k pos) -> exists i, 0 <= i < Z.of_nat k /\ o = cell_at code (pos + 1 + 2 * i).
Proof.
  induction k as [|k IH]; intros pos o H; [destruct H|]. cbn [case_offsets] in H. destruct H as [<- |H].
  - exists 0. split; [lia|]. f_equal. lia.
  - destruct (IH _ _ H) as (i & I1 & ->). exists (i + 1). split; [lia|]. f_equal. lia.
Qed.
Lemma edge_reach b s : In b blocks -> reaches code m (first_of m b) -> In s (g_succ g b) -> reaches code m s.
Proof.
  intros B R0 H. destruct (the_end b B) as (e & _ & BE). remember (g_succ g b) as ss eqn:ES.
  destruct BE as [c S J|c S NJ E|c S NJ E|c S NJ J NE|c S NJ E T]; pose proof (span_reach b c R0 S) as RC.
  - destruct H as [<- |[]]. exact RC.
  - destruct H.
  - destruct H as [<- |[]]. apply (reach_jump code m c); [exact RC|]. unfold jumps_to.
    destruct (decode_of_jump code c) as [(_ & ->)|(cc & D)]; [rewrite E; reflexivity|reflexivity|]. apply decode_jcmp in D. tauto.
  - destruct (decode_of_jump code c J) as [(X & _)|(cc & D)]; [contradiction|]. destruct H as [<- |[<- |[]]].
    + rewrite <- (size_jump code c J). apply reach_fall; [exact RC|]. unfold falls_through. rewrite D. exact Logic.I.
    + apply (reach_jump code m c); [exact RC|]. unfold jumps_to. rewrite D. reflexivity.
  - assert (D : decode code c = Some (SWITCH (cell_at code (c + 1)))) by (unfold decode; rewrite E; reflexivity).
    apply in_map_iff in H. destruct H as (o & <- & H). apply (reach_jump code m c); [exact RC|]. unfold jumps_to. rewrite D.
    unfold table_offsets in H. destruct H as [<- |H]; [now left|right]. destruct (in_offsets _ _ _ H) as (i & I0 & ->). exists i. split; [lia|f_equal; lia].
Qed.
Lemma first_reach b : In b blocks -> reaches code m (first_of m b).
Proof.
  intros B. destruct (bo_reach _ _ _ _ BO b B) as (l & P). clear B. induction P as [|l b c P IH H].
  - unfold first_of. rewrite Z.eqb_refl. constructor.
  - destruct (bo_edge _ _ _ _ BO b c H) as [B _]. rewrite (proj2 (succ_known b c H)). exact (edge_reach b c B IH H).
Qed.

(* ---- The switch a block ends in ---- *)
Lemma stop_last b c e ss : span b c -> block_end code m (pr_targets pr) b e ss -> ~ joins b c -> is_control (cell_at code c) = true ->
  e = c + insn_size code c.
Proof.
  intros S BE NJ C. assert (ST : stops code (pr_targets pr) b c) by now right.
  destruct BE as [c0 S0 J0|c0 S0 J0 E|c0 S0 J0 E|c0 S0 J0 E E2|c0 S0 J0 E E2].
  - exfalso. apply NJ. rewrite (one_stop code m (pr_targets pr) b c c0 S S0 ST (or_introl J0)). exact J0.
  - rewrite (one_stop code m (pr_targets pr) b c c0 S S0 ST) by (right; rewrite E; reflexivity). unfold insn_size. rewrite E. reflexivity.
  - rewrite (one_stop code m (pr_targets pr) b c c0 S S0 ST) by (right; rewrite E; reflexivity). unfold insn_size. rewrite E. reflexivity.
  - rewrite (one_stop code m (pr_targets pr) b c c0 S S0 ST) by (right; unfold is_control; rewrite E; reflexivity). rewrite (size_jump code c0 E). reflexivity.
  - rewrite (one_stop code m (pr_targets pr) b c c0 S S0 ST) by (right; rewrite E; reflexivity). unfold insn_size. rewrite E. reflexivity.
Qed.
Lemma found b e ss : In b blocks -> block_end code m (pr_targets pr) b e ss -> forall f c c', span b c -> find_switch code f c e = Some c' ->
  span b c' /\ ~ joins b c' /\ cell_at code c' = OP_SWITCH.
Proof.
  intros B BE. induction f as [|f IH]; intros c c' S F; [discriminate F|]. cbn [find_switch] in F.
  destruct (e <=? c) eqn:L; [discriminate F|]. pose proof (span_reach b c (first_reach b B) S) as RC.
  assert (NJ : ~ joins b c). { intros J. destruct (proj1 (end_of code m (pr_targets pr) b CO CK AC c e ss S RC BE) J) as [X _]. lia. }
  destruct (Z.eqb_spec (cell_at code c) OP_SWITCH) as [E|NE]; [injection F as <-; auto|].
  destruct (is_control (cell_at code c)) eqn:C.
  - pose proof (stop_last b c e ss S BE NJ C) as X. destruct f as [|f]; [discriminate F|]. cbn [find_switch] in F. replace (e <=? c + insn_size code c) with true in F by lia. discriminate F.
  - apply (IH _ _ (span_next code m (pr_targets pr) b c S NJ C) F).
Qed.
Lemma finds b e ss c0 : In b blocks -> block_end code m (pr_targets pr) b e ss -> span b c0 -> ~ joins b c0 -> cell_at code c0 = OP_SWITCH ->
  forall f c, span b c -> (Z.to_nat (c0 - c) < f)%nat -> find_switch code f c e = Some c0.
Proof.
  intros B BE S0 NJ0 E0. assert (C0 : is_control (cell_at code c0) = true) by (rewrite E0; reflexivity).
  pose proof (stop_last b c0 e ss S0 BE NJ0 C0) as X. assert (SZ : insn_size code c0 = 2) by (unfold insn_size; rewrite E0; reflexivity). rewrite SZ in X.
  induction f as [|f IH]; intros c S L; [lia|]. cbn [find_switch].
  pose proof (span_reach b c (first_reach b B) S) as RC.
  assert (LE : c <= c0) by (apply (ahead_le code m (pr_targets pr) b CO CK AC c c0 S S0); [now right|exact RC]).
  replace (e <=? c) with false by lia.
  destruct (Z.eqb_spec (cell_at code c) OP_SWITCH) as [E|NE].
  - f_equal. apply (one_stop code m (pr_targets pr) b c c0 S S0); [right; rewrite E; reflexivity|now right].
  - assert (N0 : c <> c0) by (intros ->; contradiction).
    assert (NS : ~ stops code (pr_targets pr) b c). { intros T. apply N0. apply (one_stop code m (pr_targets pr) b c c0 S S0 T). now right. }
    assert (NJ : ~ joins b c) by (intros J; apply NS; now left).
    assert (NC : is_control (cell_at code c) = false) by (destruct (is_control (cell_at code c)) eqn:Q; [exfalso; apply NS; now right|reflexivity]).
    pose proof (size_pos code m CO CK AC c RC). pose proof (span_next code m (pr_targets pr) b c S NJ NC) as S1.
    apply IH; [exact S1|lia].
Qed.
Definition start (b : Z) : Z := if cell_at code b =? OP_PROC then b + 1 else b.
Lemma start_span b : In b blocks -> span b (start b).
Proof.
  intros B. unfold start. destruct (Ver_Proofs.build_parts strict rounds fuel code m pr g an CO BU) as (_ & _ & _ & _ & _ & _ & PM & _).
  destruct B as [<- |B].
  - rewrite PM, Z.eqb_refl. assert (F : first_of m m = m + 1) by (unfold first_of; now rewrite Z.eqb_refl). rewrite <- F. constructor.
  - pose proof (Ver_Proofs.first_known strict rounds fuel code m pr g an CO BU b B) as F.
    assert (S : span b b) by (rewrite <- F at 2; constructor). destruct (Z.eqb_spec (cell_at code b) OP_PROC) as [E|E]; [|exact S].
    assert (SZ : insn_size code b = 1) by (unfold insn_size; rewrite E; reflexivity). rewrite <- SZ. apply span_next; [exact S|intros [_ J]; auto|rewrite E; reflexivity].
Qed.

(* The table a block is emitted with, by the switch it ends in. *)
Lemma table_switch b ts : In b blocks -> block_table code g b = Some ts ->
  exists c, span b c /\ ~ joins b c /\ reaches code m c /\
    decode code c = Some (SWITCH (cell_at code (c + 1))) /\
    (let T := cell_at code (c + 1) / 4 in let n := Z.to_nat (cell_at code (T + 1)) in
     uses_table (case_values code n (T + 3)) = true /\ ts = map (fun o => o / 4) (case_offsets code n (T + 3))).
Proof.
  intros B H. destruct (the_end b B) as (e & EE & BE). unfold block_table in H. rewrite EE in H. fold (start b) in H.
  destruct (find_switch _ _ _ _) as [c|] eqn:F; [|discriminate H]. destruct (found b e _ B BE _ _ _ (start_span b B) F) as (S & NJ & E).
  pose proof (span_reach b c (first_reach b B) S) as RC.
  assert (D : decode code c = Some (SWITCH (cell_at code (c + 1)))) by (unfold decode; rewrite E; reflexivity).
  exists c. do 4 (split; [assumption|]). cbv zeta in *. destruct (uses_table _) eqn:U; [|discriminate H]. split; [reflexivity|]. injection H as <-.
  pose proof (proj2 (proj2 (end_of code m (pr_targets pr) b CO CK AC c e _ S RC BE) NJ)) as SS. rewrite D in SS. rewrite SS. reflexivity.
Qed.
Lemma switch_table b c T : In b blocks -> span b c -> ~ joins b c -> reaches code m c -> decode code c = Some (SWITCH T) ->
  uses_table (case_values code (Z.to_nat (cell_at code (T / 4 + 1))) (T / 4 + 3)) = true ->
  block_table code g b = Some (tl (g_succ g b)).
Proof.
  intros B S NJ RC D U. destruct (the_end b B) as (e & EE & BE). unfold block_table. rewrite EE. fold (start b).
  apply decode_switch in D. destruct D as (E & ->).
  rewrite (finds b e _ c B BE S NJ E).
  - cbv zeta. rewrite U. reflexivity.
  - exact (start_span b B).
  - pose proof (span_reach b _ (first_reach b B) (start_span b B)) as RS.
    pose proof (proj1 (flow_ok code m CO c AC RC)) as (_ & (R1 & _)). pose proof (proj1 (flow_ok code m CO _ AC RS)) as (_ & (R2 & _)). lia.
Qed.

Lemma value_nth n : forall pos k, (k < n)%nat -> nth k (case_values code n pos) 0 = cell_at code (pos + 2 * Z.of_nat k).
Proof.
  induction n as [|n IH]; intros pos k L; [lia|]. cbn [case_values]. destruct k as [|k]; cbn [nth]; [f_equal; lia|]. rewrite IH by lia. f_equal. lia.
Qed.
Lemma offset_nth n : forall pos k o, nth_error (case_offsets code n pos) k = Some o -> (k < n)%nat /\ o = cell_at code (pos + 1 + 2 * Z.of_nat k).
Proof.
  induction n as [|n IH]; intros pos k o H; [destruct k; discriminate H|]. cbn [case_offsets] in H. destruct k as [|k]; cbn [nth_error] in H.
  - injection H as <-. split; [lia|f_equal; lia].
  - apply IH in H. destruct H as [L ->]. split; [lia|]. f_equal. lia.
Qed.
Lemma in_sequence n T : 0 <= cell_at code (T + 1) -> n = Z.to_nat (cell_at code (T + 1)) -> uses_table (case_values code n (T + 3)) = true ->
  2 <= cell_at code (T + 1) /\ forall k, 0 <= k < cell_at code (T + 1) -> cell_at code (T + 3 + 2 * k) = wrap32 (cell_at code (T + 3 + 2 * 0) + k).
Proof.
  intros P N U. destruct (case_lengths code n (T + 3)) as [LV _]. pose proof (case_values_i32 code n (proj1 CO) (T + 3)) as FI.
  destruct (case_values code n (T + 3)) as [|v [|w vs]] eqn:VS; try discriminate U.
  cbn [length] in LV. split; [lia|]. intros k K.
  assert (V : forall j, 0 <= j < cell_at code (T + 1) -> cell_at code (T + 3 + 2 * j) = nth (Z.to_nat j) (v :: w :: vs) 0).
  { intros j J. rewrite <- VS. rewrite value_nth by lia. f_equal. lia. }
  rewrite !V by lia. change (uses_table (v :: w :: vs)) with (negb (v =? - two31) && sequential v (w :: vs)) in U. apply andb_true_iff in U.
  change (nth (Z.to_nat 0) (v :: w :: vs) 0) with v. inversion FI as [|? ? IV _]; subst.
  destruct (Z.eq_dec k 0) as [->|NZ]; [rewrite Z.add_0_r, wrap32_id by exact IV; reflexivity|].
  replace (Z.to_nat k) with (Datatypes.S (Z.to_nat (k - 1))) by lia.
  change (nth (Datatypes.S (Z.to_nat (k - 1))) (v :: w :: vs) 0) with (nth (Z.to_nat (k - 1)) (w :: vs) 0).
  rewrite (sequential_nth _ _ _ (proj2 U)) by (cbn [length] in *; lia). f_equal. lia.
Qed.
Lemma tables_apart b b' ts ts' i i' t : In b blocks -> In b' blocks -> block_table code g b = Some ts -> block_table code g b' = Some ts' ->
  nth_error ts i = Some t -> nth_error ts' i' = Some t -> b = b' /\ i = i'.
Proof.
  intros B B' H H' I0 I1. destruct (table_switch b ts B H) as (c & S & NJ & RC & D & TS). destruct (table_switch b' ts' B' H') as (c' & S' & NJ' & RC' & D' & TS').
  assert (Q : forall c T n ts i, reaches code m c -> decode code c = Some (SWITCH (cell_at code (c + 1))) -> T = cell_at code (c + 1) / 4 -> n = Z.to_nat (cell_at code (T + 1)) ->
    uses_table (case_values code n (T + 3)) = true -> ts = map (fun o => o / 4) (case_offsets code n (T + 3)) -> nth_error ts i = Some t ->
    sequence_case code c (Z.of_nat i) t).
  { clear - CO CK AC. intros c T n ts i RC D TT N U -> NI. exists (cell_at code (c + 1)). split; [exact D|]. rewrite <- TT. cbv zeta.
    destruct (flow_switch code m CO c _ AC RC D) as (_ & (SW & _) & TB & _). rewrite <- TT in *.
    pose proof (CK _ SW TB) as P. destruct (in_sequence n T P N U) as [A1 A2]. rewrite nth_error_map in NI.
    destruct (nth_error (case_offsets code n (T + 3)) i) as [o|] eqn:O; [|discriminate NI]. injection NI as <-. apply offset_nth in O. destruct O as [L ->].
    split; [exact A1|]. split; [exact A2|]. split; [lia|]. do 2 f_equal. lia. }
  cbv zeta in TS, TS'. destruct TS as [U E], TS' as [U' E'].
  pose proof (Q c _ _ ts i RC D eq_refl eq_refl U E I0) as Q1. pose proof (Q c' _ _ ts' i' RC' D' eq_refl eq_refl U' E' I1) as Q2.
  destruct (UN _ _ _ _ _ RC RC' Q1 Q2) as [-> J]. split; [|lia].
  apply (Ver_Proofs.belongs_one strict rounds fuel code m pr g an CO CK BU b b' c'); assumption.
Qed.

(* ---- The linked table ---- *)
Definition own (b : Z) : list Z := match block_table code g b with Some ts => rev ts | None => [] end.
Lemma emits_all l : emits (flat_map (table_ops code g) l) = flat_map own l.
Proof.
  induction l as [|b l IH]; [reflexivity|]. cbn [flat_map]. unfold emits in *. rewrite flat_map_app, IH. f_equal. unfold table_ops, own. cbn [flat_map app].
  destruct (block_table code g b) as [ts|]; [|reflexivity]. induction (rev ts) as [|t r IH']; [reflexivity|]. cbn [map flat_map app]. now rewrite IH'.
Qed.
Lemma binds_all l : binds (flat_map (table_ops code g) l) = l.
Proof.
  induction l as [|b l IH]; [reflexivity|]. cbn [flat_map]. unfold binds in *. rewrite flat_map_app, IH. unfold table_ops. cbn [flat_map app].
  destruct (block_table code g b) as [ts|]; [|reflexivity].
  assert (E : forall r, flat_map (fun o => match o with AEmit _ => [] | ABind b => [b] end) (map AEmit r) = []).
  { induction r as [|t r IH']; [reflexivity|]. exact IH'. }
  rewrite E. reflexivity.
Qed.
Lemma segment {A} (f : Z -> A) b : forall l, In b l ->
  firstn (length (own b)) (skipn (slots_before code g b l) (map f (flat_map own l))) = map f (own b).
Proof.
  induction l as [|x l IH]; intros H; [destruct H|]. cbn [slots_before flat_map]. rewrite map_app. destruct (Z.eqb_spec x b) as [->|NE].
  - cbn [skipn]. rewrite firstn_app, map_length, Nat.sub_diag. cbn [firstn]. rewrite app_nil_r. rewrite <- (map_length f) at 1. apply firstn_all.
  - destruct H as [H|H]; [contradiction|]. rewrite <- (IH H). f_equal. rewrite skipn_app, map_length.
    assert (LEN : length (own x) = match block_table code g x with Some ts => length ts | None => 0%nat end).
    { unfold own. destruct (block_table code g x); [apply rev_length|reflexivity]. }
    rewrite <- LEN. rewrite skipn_all2 by (rewrite map_length; lia). cbn [app]. f_equal. lia.
Qed.
Lemma known_rpo b : In b rpo <-> In b blocks.
Proof.
  split; [|apply (in_rpo code m pr g an BO AN)]. intros H. apply (as_all _ _ _ AN) in H. destruct H as (l & P). destruct P as [|l b c P E]; [now left|].
  right. exact (proj2 (bo_edge _ _ _ _ BO b c E)).
Qed.
Lemma own_in b t : In t (own b) -> exists ts i, block_table code g b = Some ts /\ nth_error ts i = Some t.
Proof.
  unfold own. destruct (block_table code g b) as [ts|]; [|intros []]. intros H. apply in_rev in H. apply In_nth_error in H. destruct H as (i & H).
  exists ts, i. auto.
Qed.
Lemma linked_all : linked code g rpo = map Some (flat_map own rpo).
Proof.
  unfold linked. rewrite <- emits_all. apply all_filled.
  - rewrite emits_all. apply nodup_flat; [exact (as_once _ _ _ AN)| |].
    + intros b B. apply known_rpo in B. unfold own. destruct (block_table code g b) as [ts|] eqn:H; [|constructor]. apply NoDup_rev.
      apply NoDup_nth_error. intros i j L E. destruct (nth_error ts i) as [t|] eqn:X.
      * symmetry in E. exact (proj2 (tables_apart b b ts ts i j t B B H H X E)).
      * apply nth_error_None in X. lia.
    + intros x y t X Y TX TY. apply known_rpo in X, Y. destruct (own_in _ _ TX) as (ts & i & H & I0), (own_in _ _ TY) as (ts' & i' & H' & I1).
      exact (proj1 (tables_apart x y ts ts' i i' t X Y H H' I0 I1)).
  - rewrite binds_all. exact (as_once _ _ _ AN).
  - rewrite emits_all, binds_all. intros t H. apply in_flat_map in H. destruct H as (b & B & T). apply known_rpo in B. apply known_rpo. right.
    destruct (own_in _ _ T) as (ts & i & H & I0). destruct (table_switch b ts B H) as (c & S & NJ & RC & D & U).
    unfold block_table in H. destruct (block_end_at g b); [|discriminate]. destruct (find_switch _ _ _ _); [|discriminate]. cbv zeta in H. destruct (uses_table (case_values code _ (cell_at code (z0 + 1) / 4 + 3))); [|discriminate].
    injection H as <-. apply nth_error_In in I0.
    assert (IS : In t (g_succ g b)) by (destruct (g_succ g b); [destruct I0|now right]). exact (proj1 (succ_known b t IS)).
Qed.

Lemma table_right b c T : In b blocks -> span b c -> ~ joins b c -> reaches code m c -> decode code c = Some (SWITCH T) ->
  uses_table (case_values code (Z.to_nat (cell_at code (T / 4 + 1))) (T / 4 + 3)) = true ->
  table_of code g rpo b = map Some (tl (g_succ g b)).
Proof.
  intros B S NJ RC D U. pose proof (switch_table b c T B S NJ RC D U) as H. unfold table_of. rewrite H, linked_all.
  assert (L : length (tl (g_succ g b)) = length (own b)) by (unfold own; rewrite H, rev_length; reflexivity).
  rewrite L, (segment Some b rpo) by (now apply known_rpo). unfold own. rewrite H, map_rev, rev_involutive. reflexivity.
Qed.
End Method.
