From Verif Require Import Base Base_Proofs Rtti_Proofs Src_Model Src_Spec.
From Coq Require Import ZifyBool.
Ltac Zify.zify_post_hook ::= Z.div_mod_to_equations.

(* ---- Positions ---- *)
Lemma used_app a b : used (a ++ b) = used a + used b.
Proof. unfold used. induction a as [|e a IH]; cbn [app fold_right]; [lia|]. rewrite IH. lia. Qed.
Lemma used_one e : used [e] = size e + 2.
Proof. unfold used. cbn [fold_right]. lia. Qed.
Definition sizes_ok (es : list entry) : Prop := Forall (fun e => 0 <= size e < two32) es.
Lemma used_nonneg es : sizes_ok es -> 0 <= used es.
Proof. intros F. unfold used. induction F as [|e es S F IH]; cbn [fold_right]; lia. Qed.
Definition id_of (es : list entry) (j : nat) : Z := 1 + used (firstn j es).
Lemma id_step es j e : nth_error es j = Some e -> id_of es (S j) = id_of es j + size e + 2.
Proof.
  intros N. unfold id_of. assert (E : firstn (S j) es = firstn j es ++ [e]).
  { revert j N. induction es as [|x es IH]; intros [|j] N; try discriminate; cbn in *; [congruence|]. f_equal. apply IH, N. }
  rewrite E, used_app, used_one. lia.
Qed.
Lemma id_mono es a b : sizes_ok es -> (a <= b)%nat -> id_of es a <= id_of es b.
Proof.
  intros F L. unfold id_of. replace b with (a + (b - a))%nat by lia.
  assert (E : firstn (a + (b - a)) es = firstn a es ++ firstn (b - a) (skipn a es)).
  { rewrite <- (firstn_skipn a es) at 1. rewrite firstn_app, firstn_firstn.
    destruct (Nat.le_gt_cases a (length es)) as [H|H].
    - rewrite firstn_length_le by exact H. replace (Nat.min (a + (b - a)) a) with a by lia. do 2 f_equal. lia.
    - rewrite skipn_all2, !firstn_nil by lia. f_equal. f_equal. lia. }
  rewrite E, used_app. assert (0 <= used (firstn (b - a) (skipn a es))); [|lia]. apply used_nonneg.
  unfold sizes_ok. rewrite <- (firstn_skipn a es) in F. apply Forall_app in F as [_ F].
  rewrite <- (firstn_skipn (b - a) (skipn a es)) in F. apply Forall_app in F. apply F.
Qed.
Lemma id_le_used es j : sizes_ok es -> id_of es j <= 1 + used es.
Proof.
  intros F. destruct (Nat.le_gt_cases j (length es)) as [L|L].
  - pose proof (id_mono es j (length es) F L) as M. unfold id_of in *. rewrite firstn_all in M. exact M.
  - unfold id_of. rewrite firstn_all2 by lia. lia.
Qed.
Lemma id_pos es j : sizes_ok es -> 1 <= id_of es j.
Proof. intros F. pose proof (id_mono es 0 j F (Nat.le_0_l _)) as M. change (id_of es 0) with (1 + 0) in M. lia. Qed.

Definition is_mac (e : entry) : bool := match e with Macro _ _ => true | _ => false end.
Definition pos_of (es : list entry) (p : place) : Z :=
  match nth_error es (fst p - 1) with
  | Some e => id_of es (fst p - 1) + snd p + (if is_mac e then kInMacro else 0)
  | None => 0
  end.
Lemma offset_low v : 0 <= v < kInMacro -> offset v = v.
Proof.
  intros V. unfold offset. change (two32 - 1 - kInMacro) with (Z.ones 31). rewrite Z.land_ones by lia.
  apply Z.mod_small. exact V.
Qed.
Lemma offset_high v : 0 <= v < kInMacro -> offset (v + kInMacro) = v.
Proof.
  intros V. unfold offset. change (two32 - 1 - kInMacro) with (Z.ones 31). rewrite Z.land_ones by lia.
  change (2 ^ 31) with kInMacro. unfold kInMacro in *. lia.
Qed.
Lemma FromMacro_is id off : 0 <= id + off < kInMacro -> FromMacro id off = id + off + kInMacro.
Proof.
  intros V. unfold FromMacro, u32. rewrite Z.mod_small by (unfold two32, kInMacro in *; lia).
  change kInMacro with (1 * 2 ^ 31). rewrite lor_add; [reflexivity|lia|exact V].
Qed.

(* What a range of the manager is, given the entry it was made for. *)
Definition range_is (es : list entry) (j : nat) (e : entry) (r : range) : Prop :=
  rid r = id_of es j /\
  match e with
  | File i d => expansion r = 0 /\ held r = FileBody i d
  | Macro p n => expansion r = pos_of es p /\ held r = TextBody n
  end.
Record inv (es : list entry) (s : manager) : Prop := {
  iv_len : length (ranges s) = S (length es);
  iv_zero : range_at s 0 = empty_range;
  iv_range : forall j e, nth_error es j = Some e -> range_is es j e (range_at s (S j));
  iv_next : next_id s = 1 + used es;
  iv_room : used es <= 2147483646;
  iv_size : sizes_ok es;
  iv_early : forall j p n, nth_error es j = Some (Macro p n) -> exists_in (firstn j es) p;
  iv_last : (last_lookup s < length (ranges s))%nat
}.

Lemma inv_init : inv [] initial.
Proof.
  constructor; try reflexivity; try (cbn; lia).
  - intros j e N. destruct j; discriminate.
  - constructor.
  - intros j p n N. destruct j; discriminate.
Qed.

Lemma nth_firstn {A} (es : list A) j k : (k < j)%nat -> nth_error (firstn j es) k = nth_error es k.
Proof. revert j k. induction es as [|x es IH]; intros [|j] [|k] L; cbn; try lia; auto. apply IH. lia. Qed.
Lemma exists_mono es es' p : exists_in es p -> exists_in (es ++ es') p.
Proof.
  intros (e & K & N & O). exists e. split; [exact K|]. split; [|exact O]. rewrite nth_error_app1; [exact N|].
  apply nth_error_Some. congruence.
Qed.
Lemma exists_prefix es j p : exists_in (firstn j es) p -> exists_in es p.
Proof. intros H. rewrite <- (firstn_skipn j es). apply exists_mono, H. Qed.
Lemma id_of_app es es' j : (j <= length es)%nat -> id_of (es ++ es') j = id_of es j.
Proof. intros L. unfold id_of. rewrite firstn_app. replace (j - length es)%nat with 0%nat by lia. cbn [firstn]. now rewrite app_nil_r. Qed.
Lemma pos_of_app es es' p : exists_in es p -> pos_of (es ++ es') p = pos_of es p.
Proof.
  intros (e & K & N & O). unfold pos_of. assert (L : (fst p - 1 < length es)%nat) by (apply nth_error_Some; congruence).
  rewrite nth_error_app1, N by exact L. now rewrite id_of_app by lia.
Qed.

Section At.
Variables (es : list entry) (s : manager).
Hypothesis IV : inv es s.
Lemma place_bounds p e : (1 <= fst p)%nat -> nth_error es (fst p - 1) = Some e -> 0 <= snd p <= size e ->
  1 <= id_of es (fst p - 1) + snd p < kInMacro - 2.
Proof.
  intros K N O. pose proof (id_pos es (fst p - 1) (iv_size _ _ IV)). pose proof (id_step es _ e N) as ST.
  pose proof (id_le_used es (S (fst p - 1)) (iv_size _ _ IV)). pose proof (iv_room _ _ IV). unfold kInMacro. lia.
Qed.
Lemma place_offset p : exists_in es p -> exists e, nth_error es (fst p - 1) = Some e /\ 0 <= snd p <= size e /\ (1 <= fst p)%nat /\
  offset (pos_of es p) = id_of es (fst p - 1) + snd p /\ pos_of es p <> 0.
Proof.
  intros (e & K & N & O). exists e. split; [exact N|]. split; [exact O|]. split; [exact K|].
  pose proof (place_bounds p e K N O) as B. unfold pos_of. rewrite N. destruct (is_mac e).
  - rewrite offset_high by lia. split; [reflexivity|unfold kInMacro in *; lia].
  - rewrite Z.add_0_r, offset_low by lia. split; [reflexivity|lia].
Qed.
Lemma range_length j e : nth_error es j = Some e ->
  rlength (range_at s (S j)) = size e /\ rid (range_at s (S j)) = id_of es j /\ is_macro (range_at s (S j)) = is_mac e.
Proof.
  intros N. destruct (iv_range _ _ IV j e N) as [R B]. pose proof (id_pos es j (iv_size _ _ IV)) as P.
  assert (SZ : 0 <= size e < two32).
  { pose proof (iv_size _ _ IV) as F. unfold sizes_ok in F. rewrite Forall_forall in F. apply F. eapply nth_error_In, N. }
  unfold rlength. rewrite R. replace (id_of es j =? 0) with false by lia.
  destruct e as [i d|p n]; destruct B as [B1 B2]; rewrite B2; cbn [size] in *.
  - unfold u32. rewrite Z.mod_small by exact SZ. split; [reflexivity|]. split; [reflexivity|]. unfold is_macro. rewrite B1. reflexivity.
  - unfold u32. rewrite Z.mod_small by exact SZ. split; [reflexivity|]. split; [reflexivity|].
    assert (X : exists_in es p) by (eapply exists_prefix, (iv_early _ _ IV), N).
    destruct (place_offset p X) as (_ & _ & _ & _ & _ & NZ). unfold is_macro. rewrite B1. cbn. lia.
Qed.
Lemma position_is p : exists_in es p -> position s p = pos_of es p.
Proof.
  intros (e & K & N & O). destruct p as [k o]. cbn [fst snd] in *. pose proof (place_bounds (k, o) e K N O) as B. cbn [fst snd] in B.
  destruct (range_length (k - 1) e N) as (_ & R & M). replace (S (k - 1)) with k in * by lia.
  unfold position, pos_of, Pos. cbn [fst snd]. rewrite N, M, R. destruct (is_mac e).
  - apply FromMacro_is. lia.
  - unfold FromFile, u32. rewrite Z.mod_small by (unfold two32, kInMacro in *; lia). lia.
Qed.
(* Which range a position lies in. *)
Lemma owner j e loc o i e' : nth_error es j = Some e -> 0 <= o <= size e -> offset loc = id_of es j + o ->
  nth_error es i = Some e' -> id_of es i <= offset loc <= id_of es i + size e' + 1 -> i = j.
Proof.
  intros N O OF N' B. destruct (Nat.lt_trichotomy i j) as [L | [L | L]]; [|exact L|]; exfalso.
  - pose proof (id_mono es (S i) j (iv_size _ _ IV) L) as M. rewrite (id_step es i e' N') in M. lia.
  - pose proof (id_mono es (S j) i (iv_size _ _ IV) L) as M. rewrite (id_step es j e N) in M. lia.
Qed.
Lemma no_wrap j e : nth_error es j = Some e -> u32 (id_of es j + size e) = id_of es j + size e /\ u32 (id_of es j + size e + 1) = id_of es j + size e + 1.
Proof.
  intros N. pose proof (id_pos es j (iv_size _ _ IV)). pose proof (id_step es _ e N) as ST.
  pose proof (id_le_used es (S j) (iv_size _ _ IV)). pose proof (iv_room _ _ IV).
  assert (0 <= size e) by (pose proof (iv_size _ _ IV) as F; unfold sizes_ok in F; rewrite Forall_forall in F; apply F; eapply nth_error_In, N).
  unfold u32. rewrite !Z.mod_small by (unfold two32; lia). auto.
Qed.
Lemma owns_only p k : exists_in es p -> (k < length (ranges s))%nat -> owns (range_at s k) (pos_of es p) = true -> k = fst p.
Proof.
  intros X KL OW. destruct (place_offset p X) as (e & N & O & K & OF & NZ). unfold owns in OW.
  destruct k as [|k].
  - rewrite (iv_zero _ _ IV) in OW. cbn in OW. pose proof (place_bounds p e K N O) as B. rewrite OF in OW. change (u32 (0 + 0)) with 0 in OW. lia.
  - destruct (nth_error es k) as [e'|] eqn:N'.
    + destruct (range_length k e' N') as (RL & RI & _). rewrite RL, RI in OW. destruct (no_wrap k e' N') as [W _]. rewrite W in OW.
      assert (E : k = (fst p - 1)%nat) by (apply (owner _ e (pos_of es p) (snd p) k e'); auto; lia). lia.
    + apply nth_error_None in N'. rewrite (iv_len _ _ IV) in KL. lia.
Qed.
Lemma owns_right p : exists_in es p -> owns (range_at s (fst p)) (pos_of es p) = true.
Proof.
  intros X. destruct (place_offset p X) as (e & N & O & K & OF & NZ). unfold owns. destruct (range_length _ e N) as (RL & RI & _).
  replace (S (fst p - 1)) with (fst p) in * by lia. rewrite RL, RI, OF. destruct (no_wrap _ e N) as [W _]. rewrite W. lia.
Qed.
Lemma bisect_ok p : exists_in es p -> forall fuel lower upper, (1 <= lower)%nat -> (lower <= fst p < upper)%nat ->
  (upper <= length (ranges s))%nat -> (upper - lower <= fuel)%nat ->
  bisect fuel s (pos_of es p) lower upper = Done (fst p, remember s (fst p)).
Proof.
  intros X. destruct (place_offset p X) as (e & N & O & K & OF & NZ).
  induction fuel as [|n IH]; intros lower upper L1 L2 L3 FU; [lia|].
  cbn [bisect]. replace (lower <? upper)%nat with true by (symmetry; apply Nat.ltb_lt; lia). cbn [negb].
  set (mid := ((lower + upper) / 2)%nat). assert (MB : (lower <= mid < upper)%nat) by (unfold mid; split; [apply Nat.div_le_lower_bound|apply Nat.div_lt_upper_bound]; lia).
  clearbody mid. pose proof (iv_len _ _ IV) as IL.
  destruct (nth_error es (mid - 1)) as [em|] eqn:NM; [|apply nth_error_None in NM; lia].
  destruct (range_length _ em NM) as (RL & RI & _). replace (S (mid - 1)) with mid in * by lia. rewrite RL, RI.
  destruct (no_wrap _ em NM) as [W1 W2]. rewrite W1, W2, OF.
  destruct (Z.ltb_spec (id_of es (fst p - 1) + snd p) (id_of es (mid - 1))) as [A|A].
  - apply IH; try lia. split; [lia|]. destruct (Nat.lt_ge_cases (fst p) mid) as [H|H]; [exact H|exfalso].
    pose proof (id_mono es (mid - 1) (fst p - 1) (iv_size _ _ IV)). lia.
  - destruct (Z.gtb_spec (id_of es (fst p - 1) + snd p) (id_of es (mid - 1) + size em + 1)) as [B|B].
    + apply IH; try lia. split; [|lia]. destruct (Nat.lt_ge_cases mid (fst p)) as [H|H]; [lia|exfalso].
      destruct (Nat.eq_dec mid (fst p)) as [->|D]; [rewrite N in NM; assert (e = em) by congruence; subst em; lia|].
      pose proof (id_mono es (S (fst p - 1)) (mid - 1) (iv_size _ _ IV) ltac:(lia)) as M. rewrite (id_step es _ e N) in M.
      assert (0 <= size em) by (pose proof (iv_size _ _ IV) as F; unfold sizes_ok in F; rewrite Forall_forall in F; apply F; eapply nth_error_In, NM). lia.
    + assert (E : mid = fst p).
      { assert ((mid - 1)%nat = (fst p - 1)%nat); [|lia]. apply (owner _ e (pos_of es p) (snd p) (mid - 1)%nat em); auto. rewrite OF. lia. }
      subst mid. rewrite (owns_right p X). reflexivity.
Qed.
Lemma find_ok p : exists_in es p -> exists s', FindLocRange s (pos_of es p) = Done (fst p, s') /\ ranges s' = ranges s /\ inv es s'.
Proof.
  intros X. destruct (place_offset p X) as (e & N & O & K & OF & NZ). unfold FindLocRange, FindLocRangeSlow.
  destruct (owns (range_at s (last_lookup s)) (pos_of es p)) eqn:OW.
  - rewrite (owns_only p _ X (iv_last _ _ IV) OW). exists s. auto.
  - replace (pos_of es p =? 0) with false by lia. assert (PL : (fst p < length (ranges s))%nat).
    { rewrite (iv_len _ _ IV). assert (fst p - 1 < length es)%nat by (apply nth_error_Some; congruence). lia. }
    rewrite bisect_ok by (auto; lia). eexists. split; [reflexivity|]. split; [reflexivity|].
    destruct IV. constructor; auto.
Qed.
End At.

(* ---- Following expansions ---- *)
Lemma climb_ok es : forall k s o fuel, inv es s -> exists_in es (k, o) -> (k <= fuel)%nat ->
  exists k' s' i d o', climb fuel s k (pos_of es (k, o)) = Done (k', pos_of es (k', o'), s') /\ inv es s' /\ ranges s' = ranges s /\
    (1 <= k')%nat /\ nth_error es (k' - 1) = Some (File i d) /\ 0 <= o' <= Z.of_nat (length d) /\ comes_from es (k, o) i d o'.
Proof.
  induction k as [k IH] using lt_wf_ind. intros s o fuel IV X FU. pose proof X as (e & K & N & O). cbn [fst snd] in *.
  destruct (range_length es s IV _ e N) as (RL & RI & RM). pose proof (iv_range _ _ IV _ e N) as [_ RB].
  replace (S (k - 1)) with k in * by lia.
  destruct e as [i d|p n].
  - exists k, s, i, d, o. split.
    { destruct fuel; cbn [climb]; rewrite RM; cbn [is_mac]; rewrite andb_false_r; destruct RB as [_ RB]; rewrite RB; reflexivity. }
    repeat (split; [assumption || reflexivity|]). now apply from_file.
  - destruct fuel as [|f]; [lia|]. cbn [climb]. rewrite RM. cbn [is_mac]. replace (k =? 0)%nat with false by (symmetry; apply Nat.eqb_neq; lia). cbn [negb andb].
    destruct RB as [RB1 RB2]. rewrite RB1. pose proof (iv_early _ _ IV _ p n N) as E. pose proof (exists_prefix es _ p E) as XP.
    destruct (find_ok es s IV p XP) as (s1 & F & RS & IV1). rewrite F. destruct p as [kp op]. cbn [fst] in *.
    assert (LT : (kp < k)%nat).
    { destruct E as (e & K1 & N1 & _). cbn [fst] in *. assert (kp - 1 < length (firstn (k - 1) es))%nat by (apply nth_error_Some; congruence).
      rewrite firstn_length in *. lia. }
    destruct (IH kp LT s1 op f IV1 XP ltac:(lia)) as (k' & s' & i & d & o' & C & IV' & RS' & K' & N' & O' & CF).
    exists k', s', i, d, o'. rewrite C. split; [reflexivity|]. split; [exact IV'|]. split; [congruence|]. split; [exact K'|].
    split; [exact N'|]. split; [exact O'|]. eapply from_macro; eauto.
Qed.
Lemma source_ok es s p : inv es s -> exists_in es p ->
  exists k' s' i d o', FindSourceFileRangeIndex s (pos_of es p) = Done (k', pos_of es (k', o'), s') /\ inv es s' /\ ranges s' = ranges s /\
    (1 <= k')%nat /\ nth_error es (k' - 1) = Some (File i d) /\ 0 <= o' <= Z.of_nat (length d) /\ comes_from es p i d o'.
Proof.
  intros IV X. unfold FindSourceFileRangeIndex. destruct (find_ok es s IV p X) as (s1 & F & RS & IV1). rewrite F.
  destruct p as [k o]. cbn [fst]. pose proof X as (e & K & N & O). cbn [fst] in *.
  replace (k =? 0)%nat with false by (symmetry; apply Nat.eqb_neq; lia).
  destruct (climb_ok es k s1 o (length (ranges s)) IV1 X) as (k' & s' & i & d & o' & C & IV' & RS' & K' & N' & O' & CF).
  { rewrite (iv_len _ _ IV). assert (k - 1 < length es)%nat by (apply nth_error_Some; congruence). lia. }
  exists k', s', i, d, o'. rewrite C. repeat (split; [assumption || reflexivity || congruence|]). exact CF.
Qed.
Lemma file_held es s k i d : inv es s -> (1 <= k)%nat -> nth_error es (k - 1) = Some (File i d) -> held (range_at s k) = FileBody i d.
Proof.
  intros IV K N. pose proof (iv_range _ _ IV _ _ N) as [_ [_ H]]. replace (S (k - 1)) with k in H by lia. exact H.
Qed.
Lemma ask_file es s p : inv es s -> exists_in es p ->
  exists i d o s', comes_from es p i d o /\ GetSourceFileIndex s (pos_of es p) = Done (i, s') /\ inv es s'.
Proof.
  intros IV X. destruct (source_ok es s p IV X) as (k' & s' & i & d & o' & C & IV' & RS' & K' & N' & O' & CF).
  exists i, d, o', s'. split; [exact CF|]. split; [|exact IV']. unfold GetSourceFileIndex. rewrite C.
  replace (k' =? 0)%nat with false by (symmetry; apply Nat.eqb_neq; lia). now rewrite (file_held es s' k' i d IV' K' N').
Qed.

(* ---- Lines ---- *)
Definition ends_list (d : list Z) : list Z := map (fun i => Z.of_nat i + 1) (filter (ends_line d) (seq 0 (length d))).
Lemma ends_shift x d i : ends_line (x :: d) (S i) = ends_line d i.
Proof. reflexivity. Qed.
Lemma filter_shift x d n : filter (ends_line (x :: d)) (map S n) = map S (filter (ends_line d) n).
Proof. induction n as [|i n IH]; [reflexivity|]. cbn [map filter]. rewrite ends_shift. destruct (ends_line d i); cbn [map]; now rewrite IH. Qed.
Lemma ends_list_cons x d : ends_list (x :: d) = (if ends_line (x :: d) 0 then [1] else []) ++ map (Z.add 1) (ends_list d).
Proof.
  unfold ends_list. cbn [length seq filter]. rewrite <- seq_shift, filter_shift.
  assert (E : forall l, map (fun i => Z.of_nat i + 1) (map S l) = map (Z.add 1) (map (fun i => Z.of_nat i + 1) l)).
  { intros l. rewrite !map_map. apply map_ext. intros a. lia. }
  destruct (ends_line (x :: d) 0); cbn [map app]; rewrite E; reflexivity.
Qed.
Lemma extents_are : forall n d i, (length d < n)%nat -> extents_from d i = map (Z.add i) (ends_list d).
Proof.
  induction n as [|n IH]; intros d i L; [lia|]. destruct d as [|c r]; [reflexivity|]. cbn [length] in L. rewrite ends_list_cons, map_app, map_map.
  assert (ONE : forall j, map (fun x => j + (1 + x)) (ends_list r) = map (Z.add (j + 1)) (ends_list r)) by (intros j; apply map_ext; intros a; lia).
  cbn [extents_from]. unfold ends_line. cbn [nth_error].
  destruct (Z.eqb_spec c 13) as [->|N13].
  - cbn [negb andb orb Z.eqb Pos.eqb]. destruct r as [|d' r'].
    + reflexivity.
    + cbn [nth_error]. destruct (Z.eqb_spec d' 10) as [->|N10].
      * cbn [negb map app]. rewrite ends_list_cons. change (ends_line (10 :: r') 0) with true. cbn [app map].
        rewrite (IH r' (i + 2)) by (cbn in L; lia). rewrite !map_map. f_equal. apply map_ext. intros a. lia.
      * cbn [negb map app]. rewrite ONE. rewrite (IH (d' :: r') (i + 1)) by lia. reflexivity.
  - cbn [negb andb orb]. destruct (Z.eqb_spec c 10) as [->|N10].
    + cbn [negb orb map app]. rewrite ONE, (IH r (i + 1)) by lia. reflexivity.
    + cbn [negb orb map app]. rewrite ONE, (IH r (i + 1)) by lia. reflexivity.
Qed.
Lemma line_extents_are d : line_extents d = 0 :: ends_list d.
Proof. unfold line_extents. rewrite (extents_are (S (length d))) by lia. f_equal. rewrite <- (map_id (ends_list d)) at 2. apply map_ext. intros. lia. Qed.

Inductive increasing : list Z -> Prop :=
| inc_nil : increasing [] | inc_one x : increasing [x] | inc_cons x y l : x < y -> increasing (y :: l) -> increasing (x :: y :: l).
Lemma increasing_tail x l : increasing (x :: l) -> increasing l /\ Forall (fun y => x < y) l.
Proof.
  revert x. induction l as [|y l IH]; intros x I; [split; constructor|]. inversion I as [| |? ? ? L I']; subst. split; [exact I'|].
  destruct (IH y I') as [_ F]. constructor; [exact L|]. eapply Forall_impl; [|exact F]. cbn. lia.
Qed.
Lemma increasing_cons x l : increasing l -> Forall (fun y => x < y) l -> increasing (x :: l).
Proof. intros I F. destruct l as [|y l]; [constructor|]. inversion F; subst. now constructor. Qed.
Lemma ends_increasing d : increasing (0 :: ends_list d) /\ Forall (fun e => 0 < e <= Z.of_nat (length d)) (ends_list d).
Proof.
  assert (B : Forall (fun e => 0 < e <= Z.of_nat (length d)) (ends_list d)).
  { apply Forall_forall. intros e E. unfold ends_list in E. apply in_map_iff in E as (i & <- & E). apply filter_In in E as [E _]. apply in_seq in E. lia. }
  split; [|exact B]. apply increasing_cons; [|eapply Forall_impl; [|exact B]; cbn; lia].
  unfold ends_list. generalize (length d) as n, 0%nat as a. intros n. induction n as [|n IH]; intros a; [constructor|].
  cbn [seq filter]. destruct (ends_line d a); [|apply IH]. cbn [map]. apply increasing_cons; [apply IH|].
  apply Forall_forall. intros e E. apply in_map_iff in E as (i & <- & E). apply filter_In in E as [E _]. apply in_seq in E. lia.
Qed.
Lemma increasing_nth l a b : increasing l -> (a < b < length l)%nat -> nth a l 0 < nth b l 0.
Proof.
  revert a b. induction l as [|x l IH]; intros a b I L; [cbn in L; lia|]. destruct (increasing_tail x l I) as [I' F].
  destruct b as [|b]; [lia|]. destruct a as [|a]; cbn [nth]; cbn [length] in L.
  - rewrite Forall_forall in F. apply F, nth_In. lia.
  - apply IH; [exact I'|lia].
Qed.

(* The index the search finds is the number of line ends up to the offset. *)
Definition upto (l : list Z) (o : Z) : nat := length (filter (fun e => e <=? o) l).
Lemma upto_is l o k : increasing l -> (k <= length l)%nat -> (forall j, (j < k)%nat -> nth j l 0 <= o) ->
  (forall j, (k <= j < length l)%nat -> o < nth j l 0) -> upto l o = k.
Proof.
  revert k. induction l as [|x l IH]; intros k I L A B; [cbn in L; replace k with 0%nat by lia; reflexivity|].
  destruct (increasing_tail x l I) as [I' F]. unfold upto. cbn [filter]. destruct k as [|k].
  - specialize (B 0%nat) as B0. cbn in B0, L. replace (x <=? o) with false by lia. apply (IH 0%nat I'); [lia|lia|].
    intros j J. specialize (B (S j)). cbn in B. apply B. lia.
  - specialize (A 0%nat) as A0. cbn in A0, L. replace (x <=? o) with true by lia. cbn [length]. f_equal. apply (IH k I'); [lia| |].
    + intros j J. specialize (A (S j)). cbn in A. apply A. lia.
    + intros j J. specialize (B (S j)). cbn in B. apply B. lia.
Qed.
Lemma ends_upto d o : 0 <= o <= Z.of_nat (length d) -> upto (ends_list d) o = length (filter (ends_line d) (seq 0 (Z.to_nat o))).
Proof.
  intros O. unfold upto, ends_list. replace (length d) with (Z.to_nat o + (length d - Z.to_nat o))%nat by lia.
  rewrite seq_app, filter_app, map_app, filter_app, app_length. cbn [Nat.add].
  assert (A : filter (fun e => e <=? o) (map (fun i => Z.of_nat i + 1) (filter (ends_line d) (seq 0 (Z.to_nat o)))) =
              map (fun i => Z.of_nat i + 1) (filter (ends_line d) (seq 0 (Z.to_nat o)))).
  { assert (G : forall l, (forall i, In i l -> Z.of_nat i + 1 <= o) -> filter (fun e => e <=? o) (map (fun i => Z.of_nat i + 1) l) = map (fun i => Z.of_nat i + 1) l).
    { induction l as [|i l IH]; intros H; [reflexivity|]. cbn [map filter]. pose proof (H i (or_introl eq_refl)). replace (Z.of_nat i + 1 <=? o) with true by lia.
      f_equal. apply IH. intros j J. apply H. now right. }
    apply G. intros i I. apply filter_In in I as [I _]. apply in_seq in I. lia. }
  assert (B : forall n a, (Z.to_nat o <= a)%nat -> filter (fun e => e <=? o) (map (fun i => Z.of_nat i + 1) (filter (ends_line d) (seq a n))) = []).
  { induction n as [|n IH]; intros a L; [reflexivity|]. cbn [seq filter]. destruct (ends_line d a); [|apply IH; lia].
    cbn [map filter]. replace (Z.of_nat a + 1 <=? o) with false by lia. apply IH. lia. }
  rewrite A, B by lia. cbn [length]. rewrite map_length. lia.
Qed.
Lemma start_is d : forall n, (n <= length d)%nat -> start_below d n = nth (upto (ends_list d) (Z.of_nat n)) (0 :: ends_list d) 0.
Proof.
  intros n L. rewrite ends_upto by lia. rewrite Nat2Z.id.
  unfold ends_list. replace (length d) with (n + (length d - n))%nat by lia. rewrite seq_app, filter_app, map_app. cbn [Nat.add].
  generalize (map (fun i => Z.of_nat i + 1) (filter (ends_line d) (seq n (length d - n)))) as rest. clear L.
  induction n as [|n IH]; intros rest; [reflexivity|].
  rewrite seq_S, filter_app. cbn [Nat.add filter start_below]. destruct (ends_line d n).
  - rewrite app_length, map_app. cbn [length map].
    set (l := filter (ends_line d) (seq 0 n)). replace (length l + 1)%nat with (S (length l)) by lia. cbn [nth].
    rewrite app_nth1 by (rewrite app_length, map_length; cbn; lia). rewrite app_nth2 by (rewrite map_length; lia).
    rewrite map_length, Nat.sub_diag. cbn [nth]. lia.
  - rewrite app_nil_r. apply IH.
Qed.
Lemma find_line_ok d off : 0 <= off < Z.of_nat (length d) -> Z.of_nat (length d) < two32 ->
  forall fuel lower upper, let ext := 0 :: ends_list d in
  (upper <= length ext)%nat -> (lower <= upto (ends_list d) off < upper)%nat -> (upper - lower <= fuel)%nat ->
  find_line fuel d ext off lower upper =
    Done (Some (Z.of_nat (upto (ends_list d) off) + 1, off - nth (upto (ends_list d) off) ext 0 + 1)).
Proof.
  intros O LD fuel. cbn zeta. set (ext := 0 :: ends_list d). destruct (ends_increasing d) as [INC BD]. fold ext in INC.
  set (u := upto (ends_list d) off).
  assert (UL : (u <= length (ends_list d))%nat).
  { unfold u, upto. apply Nat.le_trans with (length (ends_list d)); [|lia]. generalize (ends_list d) as l. induction l as [|x l IH]; cbn; [lia|].
    destruct (x <=? off); cbn; lia. }
  assert (LE : length ext = S (length (ends_list d))) by reflexivity.
  (* below and above the found line *)
  assert (BEL : forall j, (j <= u)%nat -> nth j ext 0 <= off).
  { assert (G : forall l o, increasing l -> forall j, (j < upto l o)%nat -> nth j l 0 <= o).
    { clear. induction l as [|x l IH]; intros o I j J; [cbn in J; lia|]. unfold upto in J. cbn [filter] in J. destruct (increasing_tail x l I) as [I' F].
      destruct (Z.leb_spec x o) as [A|A].
      - destruct j as [|j]; [exact A|]. cbn [length] in J. cbn [nth]. apply IH; [exact I'|]. unfold upto. lia.
      - exfalso. assert (E : filter (fun e => e <=? o) l = []).
        { clear - F A. induction F as [|y l L F IH]; [reflexivity|]. cbn [filter]. replace (y <=? o) with false by lia. exact IH. }
        rewrite E in J. cbn in J. lia. }
    intros [|j] J; [cbn; lia|]. cbn [nth ext]. apply G; [apply (increasing_tail 0), INC|exact J]. }
  assert (ABV : forall j, (u < j < length ext)%nat -> off < nth j ext 0).
  { assert (G : forall l o, increasing l -> forall j, (upto l o <= j < length l)%nat -> o < nth j l 0).
    { clear. induction l as [|x l IH]; intros o I j J; [cbn in J; lia|]. unfold upto in J. cbn [filter] in J. destruct (increasing_tail x l I) as [I' F].
      destruct (Z.leb_spec x o) as [A|A].
      - cbn [length] in J. destruct j as [|j]; [lia|]. cbn [nth]. apply IH; [exact I'|]. unfold upto. lia.
      - destruct j as [|j]; [exact A|]. cbn [nth]. cbn [length] in J. rewrite Forall_forall in F. specialize (F (nth j l 0)).
        enough (x < nth j l 0) by lia. apply F, nth_In. lia. }
    intros [|j] J; [lia|]. cbn [nth ext]. apply G; [apply (increasing_tail 0), INC|]. rewrite LE in J. unfold u in *. lia. }
  clearbody u. induction fuel as [|n IH]; intros lower upper U1 U2 FU; [lia|].
  cbn [find_line]. replace (lower <? upper)%nat with true by (symmetry; apply Nat.ltb_lt; lia). cbn [negb].
  set (mid := ((lower + upper) / 2)%nat). assert (MB : (lower <= mid < upper)%nat) by (unfold mid; split; [apply Nat.div_le_lower_bound|apply Nat.div_lt_upper_bound]; lia).
  clearbody mid.
  destruct (Z.ltb_spec off (nth mid ext 0)) as [A|A].
  - apply IH; try lia. split; [lia|]. destruct (Nat.lt_ge_cases u mid) as [H|H]; [exact H|]. specialize (BEL mid H). lia.
  - assert (MU : (mid <= u)%nat). { destruct (Nat.le_gt_cases mid u) as [H|H]; [exact H|]. specialize (ABV mid). lia. }
    destruct (Nat.ltb_spec mid (length ext - 1)) as [M|M].
    + destruct (Z.geb_spec off (nth (mid + 1) ext 0)) as [B|B].
      * apply IH; try lia. split; [|lia]. destruct (Nat.le_gt_cases (mid + 1) u) as [H|H]; [exact H|]. specialize (ABV (mid + 1)%nat). lia.
      * assert (mid = u) as ->. { destruct (Nat.eq_dec mid u) as [H|H]; [exact H|]. specialize (BEL (mid + 1)%nat). lia. }
        specialize (BEL u (le_n _)). assert (0 <= nth u ext 0).
        { destruct u as [|u']; [cbn; lia|]. cbn [nth ext]. destruct (Nat.lt_ge_cases u' (length (ends_list d))) as [H|H].
          - rewrite Forall_forall in BD. specialize (BD _ (nth_In _ 0 H)). lia.
          - rewrite nth_overflow by exact H. lia. }
        unfold u32. rewrite Z.mod_small by lia. reflexivity.
    + assert (mid = u) as -> by lia. destruct (Z.geb_spec off (Z.of_nat (length d))) as [B|B]; [lia|].
      specialize (BEL u (le_n _)). assert (0 <= nth u ext 0).
      { destruct u as [|u']; [cbn; lia|]. cbn [nth ext]. destruct (Nat.lt_ge_cases u' (length (ends_list d))) as [H|H].
        - rewrite Forall_forall in BD. specialize (BD _ (nth_In _ 0 H)). lia.
        - rewrite nth_overflow by exact H. lia. }
      unfold u32. rewrite Z.mod_small by lia. reflexivity.
Qed.
Lemma filter_len {A} (f : A -> bool) l : (length (filter f l) <= length l)%nat.
Proof. induction l as [|x l IH]; cbn; [lia|]. destruct (f x); cbn; lia. Qed.
Lemma line_col_ok d off : 0 <= off <= Z.of_nat (length d) -> Z.of_nat (length d) < two32 ->
  OffsetToLineAndCol d off = Done (Some (line_of d off, column_of d off)).
Proof.
  intros O L. unfold OffsetToLineAndCol. replace (off >? Z.of_nat (length d)) with false by lia. rewrite line_extents_are.
  unfold column_of, line_of. rewrite <- ends_upto by exact O. destruct (Z.eqb_spec off (Z.of_nat (length d))) as [->|N].
  - do 3 f_equal. cbn [length]. rewrite ends_upto by lia. unfold ends_list. rewrite map_length, Nat2Z.id. lia.
  - rewrite find_line_ok; [|lia|exact L|lia| |lia].
    + do 3 f_equal; [lia|]. unfold line_start. rewrite start_is by lia. rewrite Z2Nat.id by lia. reflexivity.
    + split; [lia|]. unfold upto. pose proof (filter_len (fun e => e <=? off) (ends_list d)). cbn [length]. lia.
Qed.

Lemma ask_line es s p : inv es s -> exists_in es p ->
  exists i d o s', comes_from es p i d o /\ 0 <= o <= Z.of_nat (length d) /\
    GetLineAndCol s (pos_of es p) = Done (line_of d o, column_of d o, s') /\ inv es s'.
Proof.
  intros IV X. destruct (source_ok es s p IV X) as (k' & s' & i & d & o' & C & IV' & RS' & K' & N' & O' & CF).
  exists i, d, o', s'. split; [exact CF|]. split; [exact O'|]. split; [|exact IV']. unfold GetLineAndCol.
  destruct (place_offset es s IV p X) as (_ & _ & _ & _ & _ & NZ). replace (pos_of es p =? 0) with false by lia. rewrite C.
  replace (k' =? 0)%nat with false by (symmetry; apply Nat.eqb_neq; lia). rewrite (file_held es s' k' i d IV' K' N').
  assert (X' : exists_in es (k', o')) by (exists (File i d); auto). unfold ToOffset. rewrite (owns_right es s' IV' (k', o') X' : owns (range_at s' k') (pos_of es (k', o')) = true).
  destruct (place_offset es s' IV' (k', o') X') as (e & N & _ & _ & OF & _). rewrite OF. cbn [fst snd].
  destruct (range_length es s' IV' _ _ N') as (_ & RI & _). replace (S (k' - 1)) with k' in RI by lia. rewrite RI.
  assert (SZ : Z.of_nat (length d) < two32).
  { pose proof (iv_size _ _ IV') as F. unfold sizes_ok in F. rewrite Forall_forall in F. specialize (F _ (nth_error_In _ _ N')). cbn in F. lia. }
  replace (u32 (id_of es (k' - 1) + o' - id_of es (k' - 1))) with o' by (unfold u32; rewrite Z.mod_small; lia).
  rewrite line_col_ok by auto. reflexivity.
Qed.

(* ---- Histories ---- *)
Lemma enter_inv es s e mk : inv es s -> 0 <= size e < two32 ->
  (match e with File i d => mk = (fun id => {| rid := id; parent := parent (mk 0); expansion := 0; held := FileBody i d |})
              | Macro p n => exists_in es p /\ mk = (fun id => {| rid := id; parent := parent (mk 0); expansion := pos_of es p; held := TextBody n |}) end) ->
  inv (add es e) (match enter s (size e) mk with Some s' => s' | None => s end).
Proof.
  intros IV SZ MK. pose proof IV as [IL IZ IR IN IM IS IE IA]. unfold enter, TrackExtents. rewrite IN.
  assert (US : u32 (size e) = size e) by (unfold u32; now rewrite Z.mod_small). rewrite US. unfold add, fits.
  pose proof (used_nonneg es IS) as UN.
  destruct (Z.leb_spec (used es + size e + 2) 2147483646) as [F|F].
  - replace (1 + used es + size e <? two32) with true by (unfold two32; lia).
    replace (1 + used es + size e + 2 <? two32) with true by (unfold two32; lia). cbn [negb].
    replace (1 + used es + size e + 2 >? 2147483647) with false by lia.
    set (r := mk (1 + used es)).
    assert (AT : forall k, (k < length (ranges s))%nat -> nth k (ranges s ++ [r]) empty_range = range_at s k) by (intros k K; now apply app_nth1).
    constructor; cbn [ranges next_id last_lookup]; unfold range_at; cbn [ranges].
    + rewrite !app_length. cbn [length]. lia.
    + rewrite AT by lia. exact IZ.
    + intros j e' N. destruct (Nat.lt_ge_cases j (length es)) as [L|L].
      * rewrite nth_error_app1 in N by exact L. rewrite AT by lia. destruct (IR j e' N) as [A B]. split; [rewrite A, id_of_app by lia; reflexivity|].
        destruct e' as [i d|p n]; [exact B|]. rewrite pos_of_app; [exact B|]. eapply exists_prefix, IE, N.
      * rewrite nth_error_app2 in N by exact L. destruct (j - length es)%nat as [|q] eqn:Q; [|destruct q; discriminate]. cbn in N. assert (e' = e) as -> by congruence.
        assert (j = length es) as -> by lia. rewrite app_nth2 by lia. rewrite IL, Nat.sub_diag. cbn [nth].
        assert (ID : id_of (es ++ [e]) (length es) = 1 + used es) by (rewrite id_of_app by lia; unfold id_of; now rewrite firstn_all).
        unfold r. destruct e as [i d|p n].
        -- rewrite MK. split; [cbn [rid]; now rewrite ID|]. split; reflexivity.
        -- destruct MK as [X MK]. rewrite MK. split; [cbn [rid]; now rewrite ID|]. rewrite pos_of_app by exact X. split; reflexivity.
    + rewrite used_app, used_one. lia.
    + rewrite used_app, used_one. lia.
    + apply Forall_app. split; [exact IS|]. constructor; [exact SZ|constructor].
    + intros j p n N. destruct (Nat.lt_ge_cases j (length es)) as [L|L].
      * rewrite nth_error_app1 in N by exact L. rewrite firstn_app. apply exists_mono. eapply IE, N.
      * rewrite nth_error_app2 in N by exact L. destruct (j - length es)%nat as [|q] eqn:Q; [|destruct q; discriminate]. cbn in N. assert (e = Macro p n) as -> by congruence.
        assert (j = length es) as -> by lia. rewrite firstn_app, firstn_all, Nat.sub_diag. cbn [firstn]. rewrite app_nil_r. apply MK.
    + rewrite app_length. cbn [length]. lia.
  - destruct (negb (1 + used es + size e <? two32)); [exact IV|]. destruct (negb (1 + used es + size e + 2 <? two32)); [exact IV|].
    replace (1 + used es + size e + 2 >? 2147483647) with true by lia. exact IV.
Qed.
Lemma event_inv es s ev : inv es s -> event_ok es ev -> exists s', do_event s ev = Done s' /\ inv (entered1 es ev) s'.
Proof.
  intros IV OK. destruct ev as [i d f|f p n|p|p]; cbn [do_event entered1] in *.
  - eexists. split; [reflexivity|]. unfold EnterFile. apply (enter_inv es s (File i d) _ IV); [cbn in *; lia|reflexivity].
  - destruct OK as [X SZ]. rewrite (position_is es s IV p X). unfold EnterMacro.
    destruct (place_offset es s IV p X) as (_ & _ & _ & _ & _ & NZ). replace (pos_of es p =? 0) with false by lia.
    pose proof (enter_inv es s (Macro p n) (fun id => {| rid := id; parent := f; expansion := pos_of es p; held := TextBody n |}) IV SZ (conj X eq_refl)) as H.
    cbn [size] in H. destruct (enter s n _) as [s'|]; eexists; split; try reflexivity; exact H.
  - cbn in OK. rewrite (position_is es s IV p OK). destruct (ask_file es s p IV OK) as (i & d & o & s' & _ & E & IV'). rewrite E. eauto.
  - cbn in OK. rewrite (position_is es s IV p OK). destruct (ask_line es s p IV OK) as (i & d & o & s' & _ & _ & E & IV'). rewrite E. eauto.
Qed.
Lemma run_inv h : forall es s, inv es s -> well_used_from es h -> exists s', run h s = Done s' /\ inv (fold_left entered1 h es) s'.
Proof.
  induction h as [|ev h IH]; intros es s IV OK; [exists s; auto|]. destruct OK as [O1 O2].
  destruct (event_inv es s ev IV O1) as (s1 & E & IV1). cbn [run fold_left]. rewrite E. apply IH; assumption.
Qed.

Lemma positions_found h : well_used h -> exists s, run h initial = Done s /\
  forall p, exists_in (entered h) p -> exists i d o, comes_from (entered h) p i d o /\ 0 <= o <= Z.of_nat (length d) /\
    (exists s', GetSourceFileIndex s (position s p) = Done (i, s')) /\
    (exists s', GetLineAndCol s (position s p) = Done (line_of d o, column_of d o, s')).
Proof.
  intros W. destruct (run_inv h [] initial inv_init W) as (s & E & IV). exists s. split; [exact E|]. intros p X.
  change (fold_left entered1 h []) with (entered h) in IV. rewrite (position_is _ _ IV p X).
  destruct (ask_line _ _ p IV X) as (i & d & o & s' & CF & O & A & _).
  destruct (ask_file _ _ p IV X) as (i2 & d2 & o2 & s2 & CF2 & A2 & _).
  assert (U : forall q i d o, comes_from (entered h) q i d o -> forall i' d' o', comes_from (entered h) q i' d' o' -> i = i' /\ d = d' /\ o = o').
  { clear. intros q i d o C. induction C as [k i d o K N|k o p n i d o' K N C IH]; intros i' d' o'' C'; inversion C'; subst.
    - rewrite N in *. split; [congruence|]. split; congruence.
    - congruence.
    - congruence.
    - match goal with H : nth_error _ _ = Some (Macro ?q _) |- _ => assert (q = p) as -> by congruence end. auto. }
  destruct (U _ _ _ _ CF _ _ _ CF2) as (-> & -> & ->). exists i2, d2, o2. eauto 8.
Qed.
Lemma positions_distinct h : well_used h -> exists s, run h initial = Done s /\
  forall p q, exists_in (entered h) p -> exists_in (entered h) q -> position s p = position s q -> p = q.
Proof.
  intros W. destruct (run_inv h [] initial inv_init W) as (s & E & IV). exists s. split; [exact E|]. intros p q X Y.
  change (fold_left entered1 h []) with (entered h) in IV. rewrite (position_is _ _ IV p X), (position_is _ _ IV q Y). intros EQ.
  pose proof (owns_right _ _ IV p X) as OW. rewrite EQ in OW.
  assert (F : fst p = fst q).
  { apply (owns_only _ _ IV q _ Y); [|exact OW]. destruct X as (e & K & N & _). rewrite (iv_len _ _ IV).
    assert (fst p - 1 < length (entered h))%nat by (apply nth_error_Some; congruence). lia. }
  destruct (place_offset _ _ IV p X) as (_ & _ & _ & _ & OP & _). destruct (place_offset _ _ IV q Y) as (_ & _ & _ & _ & OQ & _).
  rewrite EQ, OQ, F in OP. destruct p as [k o], q as [k' o']. cbn [fst snd] in *. subst k'. f_equal. lia.
Qed.
Lemma positions_flag h : well_used h -> exists s, run h initial = Done s /\
  forall p e, exists_in (entered h) p -> nth_error (entered h) (fst p - 1) = Some e ->
    0 < position s p < two32 /\ IsInMacro (position s p) = (match e with Macro _ _ => true | File _ _ => false end).
Proof.
  intros W. destruct (run_inv h [] initial inv_init W) as (s & E & IV). exists s. split; [exact E|]. intros p e X N.
  change (fold_left entered1 h []) with (entered h) in IV. rewrite (position_is _ _ IV p X).
  destruct X as (e' & K & N' & O). assert (e' = e) as -> by congruence. pose proof (place_bounds _ _ IV p e K N O) as B.
  unfold pos_of. rewrite N. set (v := id_of (entered h) (fst p - 1) + snd p) in *.
  destruct e as [i d|q n]; cbn [is_mac].
  - rewrite Z.add_0_r. split; [unfold two32, kInMacro in *; lia|]. unfold IsInMacro.
    replace (Z.land v kInMacro) with 0; [reflexivity|]. symmetry. change kInMacro with (2 ^ 31). apply Z.bits_inj'. intros k KK.
    rewrite Z.land_spec, Z.bits_0. destruct (Z.eq_dec k 31) as [->|D]; [|rewrite Z.pow2_bits_false by lia; apply andb_false_r].
    rewrite Z.bits_above_log2; [reflexivity|lia|]. apply Z.log2_lt_pow2; unfold kInMacro in *; lia.
  - split; [unfold two32, kInMacro in *; lia|]. unfold IsInMacro.
    replace (v + kInMacro) with (Z.lor v (1 * 2 ^ 31)) by (rewrite lor_add; unfold kInMacro in *; lia).
    assert (T : Z.testbit (Z.land (Z.lor v (1 * 2 ^ 31)) kInMacro) 31 = true).
    { rewrite Z.land_spec, Z.lor_spec. change (Z.testbit (1 * 2 ^ 31) 31) with true. change (Z.testbit kInMacro 31) with true. now rewrite orb_true_r. }
    destruct (Z.eqb_spec (Z.land (Z.lor v (1 * 2 ^ 31)) kInMacro) 0) as [Z0|Z0]; [rewrite Z0, Z.bits_0 in T; discriminate|reflexivity].
Qed.

(* The line shown for a position has its character in the reported column. *)
Lemma bracket d off : 0 <= off < Z.of_nat (length d) -> let u := upto (ends_list d) off in let ext := 0 :: ends_list d in
  (u < length ext)%nat /\ 0 <= nth u ext 0 <= off /\
  off < (if (S u <? length ext)%nat then nth (S u) ext 0 else Z.of_nat (length d)) <= Z.of_nat (length d).
Proof.
  intros O. cbn zeta. set (ext := 0 :: ends_list d). destruct (ends_increasing d) as [INC BD]. set (u := upto (ends_list d) off).
  pose proof (filter_len (fun e => e <=? off) (ends_list d)) as UL. fold (upto (ends_list d) off) in UL. fold u in UL.
  assert (ST : nth u ext 0 = start_below d (Z.to_nat off)) by (rewrite start_is by lia; rewrite Z2Nat.id by lia; reflexivity).
  assert (SB : forall n, 0 <= start_below d n <= Z.of_nat n) by (induction n as [|n IH]; cbn [start_below]; [lia|]; destruct (ends_line d n); lia).
  specialize (SB (Z.to_nat off)). split; [cbn; lia|]. split; [rewrite ST; lia|].
  destruct (Nat.ltb_spec (S u) (length ext)) as [L|L]; [|lia]. cbn [nth ext]. cbn [length ext] in L. change (length ext) with (S (length (ends_list d))) in L.
  assert (G : forall l o, increasing l -> (upto l o < length l)%nat -> o < nth (upto l o) l 0).
  { clear. induction l as [|x l IH]; intros o I J; [cbn in J; lia|]. destruct (increasing_tail x l I) as [I' F]. unfold upto in *. cbn [filter] in *.
    destruct (Z.leb_spec x o) as [A|A]; cbn [length] in *.
    - cbn [nth]. apply IH; [exact I'|lia].
    - assert (E : filter (fun e => e <=? o) l = []).
      { clear - F A. induction F as [|y l L F IH]; [reflexivity|]. cbn [filter]. replace (y <=? o) with false by lia. exact IH. }
      rewrite E. exact A. }
  split; [apply G; [apply (increasing_tail 0), INC|fold u; lia]|]. rewrite Forall_forall in BD. apply (BD (nth u (ends_list d) 0)), nth_In. lia.
Qed.
Lemma nth_error_skipn {A} (l : list A) a k : nth_error (skipn a l) k = nth_error l (a + k).
Proof. revert l. induction a as [|a IH]; intros l; [reflexivity|]. destruct l; [destruct k; reflexivity|]. cbn. apply IH. Qed.
Lemma shown_line d off : 0 <= off < Z.of_nat (length d) -> Z.of_nat (length d) < two31 ->
  nth_error (GetLine d (line_of d off)) (Z.to_nat (column_of d off - 1)) = nth_error d (Z.to_nat off).
Proof.
  intros O L. destruct (bracket d off O) as (UL & A & B). set (u := upto (ends_list d) off) in *. set (ext := 0 :: ends_list d) in *.
  assert (EL : (length ext <= S (length d))%nat).
  { unfold ext, ends_list. cbn [length]. rewrite map_length. pose proof (filter_len (ends_line d) (seq 0 (length d))). rewrite seq_length in *. lia. }
  assert (LN : line_of d off = Z.of_nat u + 1) by (unfold line_of; rewrite <- ends_upto by lia; fold u; lia).
  assert (CL : column_of d off - 1 = off - nth u ext 0).
  { unfold column_of. replace (off =? Z.of_nat (length d)) with false by lia. unfold line_start. rewrite start_is by lia. rewrite Z2Nat.id by lia. fold u ext. lia. }
  rewrite LN, CL. unfold GetLine, OffsetOfLine. rewrite !line_extents_are. fold ext.
  replace (u32 (Z.of_nat u + 1 - 1)) with (Z.of_nat u) by (unfold u32; rewrite Z.mod_small by (unfold two31, two32 in *; lia); lia).
  replace (Z.of_nat u >? Z.of_nat (length ext)) with false by lia. replace (Z.of_nat u =? Z.of_nat (length ext)) with false by lia. rewrite Nat2Z.id.
  replace (u32 (u32 (Z.of_nat u + 1 + 1) - 1)) with (Z.of_nat (S u)).
  2:{ unfold u32. rewrite (Z.mod_small (Z.of_nat u + 1 + 1)) by (unfold two31, two32 in *; lia). rewrite Z.mod_small by (unfold two31, two32 in *; lia). lia. }
  replace (Z.of_nat (S u) >? Z.of_nat (length ext)) with false by lia. rewrite Nat2Z.id.
  set (e := if Z.of_nat (S u) =? Z.of_nat (length ext) then Some (Z.of_nat (length d)) else Some (nth (S u) ext 0)).
  assert (EE : exists b, e = Some b /\ off < b <= Z.of_nat (length d)).
  { unfold e. destruct (Nat.ltb_spec (S u) (length ext)) as [H|H].
    - replace (Z.of_nat (S u) =? Z.of_nat (length ext)) with false by lia. eauto.
    - replace (Z.of_nat (S u) =? Z.of_nat (length ext)) with true by lia. eauto. }
  destruct EE as (b & -> & BB). unfold u32. rewrite Z.mod_small by (unfold two31, two32 in *; lia).
  assert (FN : forall (l : list Z) n k, (k < n)%nat -> nth_error (firstn n l) k = nth_error l k) by (intros; now apply nth_firstn).
  rewrite FN by lia. rewrite nth_error_skipn. f_equal. lia.
Qed.
