(* C18: the reader finds what the writer wrote. *)
From Coq Require Import ZifyBool.
From Coq Require String. Import String.StringSyntax.
From Verif Require Import Base Base_Proofs Rtti_Model Rt_Model Img_Model Img_Spec Img_Proofs Img_Safe.
Local Open Scope string_scope.
Local Open Scope Z_scope.
Ltac Zify.zify_post_hook ::= Z.div_mod_to_equations.

(* ---- Where bytes are. ---- *)
Lemma bytes_at_app buf o a b : bytes_at buf o (a ++ b) <-> bytes_at buf o a /\ bytes_at buf (o + blen a) b.
Proof.
  split.
  - intros (pre & post & -> & L). split.
    + exists pre, (b ++ post). rewrite <- app_assoc. auto.
    + exists (pre ++ a), post. rewrite blen_app, <- !app_assoc. split; [reflexivity|lia].
  - intros [(p & q & E & L) (p' & q' & E' & L')]. exists p, q'. split; [|exact L]. rewrite E' in E.
    assert (X : p' = p ++ a).
    { apply (f_equal (firstn (length p'))) in E. rewrite firstn_app, Nat.sub_diag, firstn_O, app_nil_r, firstn_all in E.
      rewrite app_assoc, firstn_app in E. unfold blen in *. replace (length p' - length (p ++ a))%nat with 0%nat in E by (rewrite app_length; lia).
      rewrite firstn_O, app_nil_r in E. rewrite firstn_all2 in E by (rewrite app_length; lia). exact E. }
    rewrite E', X, <- !app_assoc. reflexivity.
Qed.
Lemma bytes_at_inside buf o l : bytes_at buf o l -> 0 <= o /\ o + blen l <= blen buf.
Proof. intros (p & q & -> & <-). rewrite !blen_app. pose proof (blen_nonneg p). pose proof (blen_nonneg q). lia. Qed.
Lemma bytes_at_nth buf o l : bytes_at buf o l -> forall k, 0 <= k < blen l -> byte_at buf (o + k) = nth (Z.to_nat k) l 0.
Proof.
  intros (p & q & -> & <-) k K. unfold byte_at, blen in *. replace (Z.to_nat (_ + k)) with (length p + Z.to_nat k)%nat by lia.
  rewrite app_nth2_plus, app_nth1 by lia. reflexivity.
Qed.
Lemma bytes_at_take buf o l : bytes_at buf o l -> firstn (Z.to_nat (blen l)) (skipn (Z.to_nat o) buf) = l.
Proof.
  intros (p & q & -> & <-). unfold blen. rewrite !Nat2Z.id. rewrite skipn_app, skipn_all, Nat.sub_diag. cbn [app skipn].
  rewrite firstn_app, firstn_all, Nat.sub_diag, firstn_O, app_nil_r. reflexivity.
Qed.
Lemma take_bytes_at buf o n : 0 <= o -> o + Z.of_nat n <= blen buf -> bytes_at buf o (firstn n (skipn (Z.to_nat o) buf)).
Proof.
  intros O' L. exists (firstn (Z.to_nat o) buf), (skipn n (skipn (Z.to_nat o) buf)). rewrite !firstn_skipn. split; [reflexivity|].
  unfold blen in *. rewrite firstn_length. lia.
Qed.

Lemma le4_length v : blen (le4 v) = 4. Proof. reflexivity. Qed.
Lemma le4_word buf o v : is_u32 v -> bytes_at buf o (le4 v) -> word_at buf o = v.
Proof.
  intros U H. pose proof (bytes_at_nth _ _ _ H) as N. rewrite le4_length in N. unfold word_at.
  pose proof (N 0 ltac:(lia)) as N0. pose proof (N 1 ltac:(lia)) as N1. pose proof (N 2 ltac:(lia)) as N2. pose proof (N 3 ltac:(lia)) as N3.
  rewrite Z.add_0_r in N0. rewrite N0, N1, N2, N3. unfold le4. cbn [nth Z.to_nat Pos.to_nat Pos.iter_op Nat.add].
  unfold is_u32, two32 in U. clear - U. change (Pos.to_nat 1) with 1%nat. change (Pos.to_nat 2) with 2%nat. change (Pos.to_nat 3) with 3%nat. cbn [nth]. lia.
Qed.
Lemma string_bytes_at buf o s : bytes_at buf o (s ++ [0]) -> Forall (fun c => c <> 0) s -> string_at buf o s.
Proof.
  intros H N. pose proof (bytes_at_inside _ _ _ H) as [I _]. apply bytes_at_take in H. split; [exact I|]. split; [|exact N].
  unfold blen in H. rewrite Nat2Z.id, app_length in H. cbn [length] in H. exact H.
Qed.

(* ---- Sizes. ---- *)
Lemma names_length_app a b : names_length (a ++ b) = names_length a + names_length b.
Proof. unfold names_length. induction a as [|s a IH]; cbn [app fold_right]; [lia|]. rewrite IH. lia. Qed.
Lemma data_length_app a b : data_length (a ++ b) = data_length a + data_length b.
Proof. unfold data_length. induction a as [|s a IH]; cbn [app fold_right]; [lia|]. rewrite IH. lia. Qed.
Lemma names_length_nonneg a : 0 <= names_length a.
Proof. unfold names_length. induction a as [|s a IH]; cbn [fold_right]; [lia|]. pose proof (blen_nonneg (se_name s)). lia. Qed.
Lemma data_length_nonneg a : 0 <= data_length a.
Proof. unfold data_length. induction a as [|s a IH]; cbn [fold_right]; [lia|]. pose proof (blen_nonneg (se_bytes s)). lia. Qed.
Lemma names_blen a : blen (flat_map (fun s => se_name s ++ [0]) a) = names_length a.
Proof. unfold names_length. induction a as [|s a IH]; cbn [flat_map fold_right]; [reflexivity|]. rewrite !blen_app, IH. cbn. lia. Qed.
Lemma data_blen a : blen (flat_map se_bytes a) = data_length a.
Proof. unfold data_length. induction a as [|s a IH]; cbn [flat_map fold_right]; [reflexivity|]. rewrite !blen_app, IH. lia. Qed.
Lemma table_blen : forall a n d, blen (write_table a n d) = 12 * Z.of_nat (length a).
Proof. induction a as [|s a IH]; intros n d; cbn [write_table length]; [reflexivity|]. rewrite !blen_app, IH, !le4_length. lia. Qed.
Lemma write_table_app : forall a b n d, data_length a < two32 -> 
  write_table (a ++ b) n d = write_table a n d ++ write_table b (n + names_length a) (d + data_length a).
Proof.
  induction a as [|s a IH]; intros b n d D; cbn [app write_table].
  - unfold names_length, data_length. cbn [fold_right]. rewrite !Z.add_0_r. reflexivity.
  - unfold data_length in D. cbn [fold_right] in D. fold (data_length a) in D. pose proof (blen_nonneg (se_bytes s)). pose proof (data_length_nonneg a).
    rewrite IH by lia. rewrite <- !app_assoc. unfold u32. rewrite !(Z.mod_small (blen (se_bytes s))) by lia.
    unfold names_length, data_length. cbn [fold_right]. fold (names_length a) (data_length a).
    do 4 f_equal. f_equal; lia.
Qed.

Section Written.
Variable secs : list section.
Hypothesis W : writable secs.
Notation img := (write_image secs).
Notation n := (Z.of_nat (length secs)).
Notation names_at := (24 + 12 * n).
Notation data_at := (24 + 12 * n + names_length secs).

Lemma image_parts : bytes_at img 0 (le4 FILE_MAGIC ++ le2 0x0102 ++ [0]) /\ bytes_at img 15 [n] /\ bytes_at img 16 (le4 names_at) /\
  bytes_at img 20 (le4 data_at) /\ bytes_at img 24 (write_table secs 0 data_at) /\
  bytes_at img names_at (flat_map (fun s => se_name s ++ [0]) secs) /\ bytes_at img data_at (flat_map se_bytes secs) /\
  blen img = data_at + data_length secs.
Proof.
  destruct W as (W1 & _ & _ & W4). pose proof (names_length_nonneg secs). pose proof (data_length_nonneg secs).
  assert (E : img = le4 FILE_MAGIC ++ le2 0x0102 ++ [0] ++ le4 (data_at + data_length secs) ++ le4 (data_at + data_length secs) ++ [n] ++ le4 names_at ++ le4 data_at ++
     write_table secs 0 data_at ++ flat_map (fun s => se_name s ++ [0]) secs ++ flat_map se_bytes secs).
  { unfold write_image, HDR, SECT. cbv zeta. unfold u32. rewrite !(Z.mod_small (24 + 12 * n)) by lia.
    rewrite !(Z.mod_small (24 + 12 * n + data_length secs + names_length secs)) by lia. rewrite !(Z.mod_small data_at) by lia.
    rewrite (Z.mod_small n 256) by lia. replace (24 + 12 * n + data_length secs + names_length secs) with (data_at + data_length secs) by lia. reflexivity. }
  set (d := data_at) in *. set (dl := d + data_length secs). set (st := names_at) in *.
  assert (A : bytes_at img 0 img) by (exists [], []; rewrite app_nil_r; auto). rewrite E in A at 2.
  rewrite bytes_at_app in A. destruct A as [A1 A]. rewrite le4_length in A.
  rewrite bytes_at_app in A. destruct A as [A2 A]. change (blen (le2 258)) with 2 in A.
  rewrite bytes_at_app in A. destruct A as [A3 A]. change (blen [0]) with 1 in A.
  rewrite bytes_at_app in A. destruct A as [_ A]. rewrite le4_length in A.
  rewrite bytes_at_app in A. destruct A as [_ A]. rewrite le4_length in A.
  rewrite bytes_at_app in A. destruct A as [A4 A]. change (blen [n]) with 1 in A.
  rewrite bytes_at_app in A. destruct A as [A5 A]. rewrite le4_length in A.
  rewrite bytes_at_app in A. destruct A as [A6 A]. rewrite le4_length in A.
  rewrite bytes_at_app in A. destruct A as [A7 A]. rewrite table_blen in A.
  rewrite bytes_at_app in A. destruct A as [A8 A9]. rewrite names_blen in A9.
  split. { rewrite bytes_at_app, bytes_at_app. rewrite le4_length. change (blen (le2 258)) with 2. auto. }
  split; [exact A4|]. split; [exact A5|]. split; [exact A6|]. split; [exact A7|].
  split. { replace st with (0 + 4 + 2 + 1 + 4 + 4 + 1 + 4 + 4 + 12 * n) by (unfold st; lia). exact A8. }
  split. { replace d with (0 + 4 + 2 + 1 + 4 + 4 + 1 + 4 + 4 + 12 * n + names_length secs) by (unfold d; lia). exact A9. }
  rewrite E. rewrite !blen_app, !le4_length, table_blen, names_blen, data_blen. change (blen (le2 258)) with 2.
  change (blen [0]) with 1. change (blen [n]) with 1. unfold d. lia.
Qed.

Lemma flat_at (f : section -> list Z) buf o a s b : bytes_at buf o (flat_map f (a ++ s :: b)) ->
  bytes_at buf (o + blen (flat_map f a)) (f s).
Proof.
  rewrite flat_map_app, bytes_at_app. intros [_ H]. cbn [flat_map] in H. rewrite bytes_at_app in H. exact (proj1 H).
Qed.

(* Entry [k] of the table. *)
Lemma entry_at a s b : secs = a ++ s :: b ->
  let k := Z.of_nat (length a) in
  word_at img (24 + 12 * k) = names_length a /\ entry_off img k = data_at + data_length a /\ entry_size img k = blen (se_bytes s) /\
  string_at img (names_at + names_length a) (se_name s) /\ bytes_at img (data_at + data_length a) (se_bytes s) /\
  names_length a + blen (se_name s) + 1 <= names_length secs /\ 24 + 12 * (k + 1) <= blen img.
Proof.
  intros E k. destruct image_parts as (_ & _ & _ & _ & T & N & D & L). pose proof W as (W1 & _ & W3 & W4).
  assert (SN : names_length secs = names_length a + (blen (se_name s) + 1 + names_length b)).
  { rewrite E, names_length_app. reflexivity. }
  assert (SD : data_length secs = data_length a + (blen (se_bytes s) + data_length b)).
  { rewrite E, data_length_app. reflexivity. }
  pose proof (names_length_nonneg a). pose proof (names_length_nonneg b). pose proof (data_length_nonneg a). pose proof (data_length_nonneg b).
  pose proof (blen_nonneg (se_name s)). pose proof (blen_nonneg (se_bytes s)).
  assert (KN : n = k + 1 + Z.of_nat (length b)) by (rewrite E, app_length; cbn [length]; unfold k; lia).
  set (d := data_at) in *. rewrite E in T at 2. rewrite write_table_app in T by (unfold d in *; lia).
  rewrite bytes_at_app in T. destruct T as [_ T]. rewrite table_blen in T. fold k in T. cbn [write_table] in T.
  rewrite bytes_at_app in T. destruct T as [T1 T]. rewrite le4_length in T.
  rewrite bytes_at_app in T. destruct T as [T2 T]. rewrite le4_length in T.
  rewrite bytes_at_app in T. destruct T as [T3 _]. unfold u32 in T1, T2, T3.
  rewrite (Z.mod_small (0 + names_length a)) in T1 by (unfold d in *; lia). rewrite (Z.mod_small (d + data_length a)) in T2 by (unfold d in *; lia).
  rewrite (Z.mod_small (blen (se_bytes s))) in T3 by (unfold d in *; lia).
  apply le4_word in T1; [|unfold is_u32, d in *; lia]. apply le4_word in T2; [|unfold is_u32, d in *; lia]. apply le4_word in T3; [|unfold is_u32, d in *; lia].
  unfold entry_off, entry_size. split; [rewrite T1; lia|]. split; [exact T2|].
  split. { replace (24 + 12 * k + 8) with (24 + 12 * k + 4 + 4) by lia. exact T3. }
  split. { rewrite E in N at 3. apply flat_at in N. rewrite names_blen in N. apply string_bytes_at; [exact N|].
           rewrite E in W3. apply Forall_app in W3 as [_ W3]. inversion W3 as [|? ? X _]; subst. apply X. }
  split. { rewrite E in D at 2. apply flat_at in D. rewrite data_blen in D. exact D. }
  unfold d in *. lia.
Qed.

Lemma load_written inflate fresh : load inflate fresh img = IGood img.
Proof.
  destruct image_parts as (H & _ & _ & _ & _ & _ & _ & L). pose proof W as (W1 & _). pose proof (names_length_nonneg secs). pose proof (data_length_nonneg secs).
  assert (X : bytes_at img 0 (le4 FILE_MAGIC)) by (rewrite bytes_at_app in H; apply H).
  apply le4_word in X; [|unfold is_u32, FILE_MAGIC, two32; lia].
  pose proof (bytes_at_nth _ _ _ H) as Nt. change (blen (le4 FILE_MAGIC ++ le2 0x0102 ++ [0])) with 7 in Nt.
  pose proof (Nt 4 ltac:(lia)) as N4. pose proof (Nt 5 ltac:(lia)) as N5. pose proof (Nt 6 ltac:(lia)) as N6.
  change (byte_at img 4 = 2) in N4. change (byte_at img 5 = 1) in N5. change (byte_at img 6 = 0) in N6.
  unfold load, HDR. destruct (_ <? 24) eqn:Q; [lia|]. rewrite rd4_ok by lia. cbn [ibind]. rewrite X.
  change (negb (FILE_MAGIC =? FILE_MAGIC)) with false. cbv iota. rewrite rd2_ok by lia. cbn [ibind]. change (4 + 1) with 5. rewrite N4, N5.
  change (negb (existsb (Z.eqb (2 + 256 * 1)) versions)) with false. cbv iota. rewrite rd1_ok by lia. cbn [ibind]. rewrite N6. reflexivity.
Qed.

Lemma read_sections_ok buf st dt : forall m i last, 0 <= i -> 24 + 12 * (i + Z.of_nat m) <= blen buf -> 
  (forall j, i <= j < i + Z.of_nat m -> word_at buf (24 + 12 * j) < u32 (dt - st)) ->
  exists r, read_sections buf st dt m i last = IGood r /\
    fst r = map (fun k => let j := i + Z.of_nat k in mkSect (st + word_at buf (24 + 12 * j)) (entry_off buf j) (entry_size buf j)) (seq 0 m).
Proof.
  induction m as [|m IH]; intros i last I L H; cbn [read_sections].
  - eexists. split; [reflexivity|reflexivity].
  - unfold HDR, SECT. rewrite !rd4_ok by lia. cbn [ibind]. pose proof (H i ltac:(lia)). destruct (_ <=? _) eqn:Q; [lia|].
    destruct (IH (i + 1) (if last <? word_at buf (24 + 12 * i) then word_at buf (24 + 12 * i) else last)) as (r & E & F); [lia|lia|intros j J; apply H; lia|].
    rewrite E. cbn [ibind]. eexists. split; [reflexivity|]. cbn [fst seq map]. rewrite F. cbv zeta. cbn [Z.of_nat]. rewrite Z.add_0_r.
    f_equal. rewrite <- seq_shift, map_map. apply map_ext. intros k. cbv zeta. replace (i + 1 + Z.of_nat k) with (i + Z.of_nat (S k)) by lia. reflexivity.
Qed.
Lemma find_nul_ok buf : forall m o k, 0 <= o -> o + Z.of_nat m <= blen buf -> 0 <= k < Z.of_nat m -> byte_at buf (o + k) = 0 ->
  find_nul buf m o = IGood true.
Proof.
  induction m as [|m IH]; intros o k O' L K Z0; cbn [find_nul]; [lia|]. rewrite rd1_ok by lia. cbn [ibind].
  destruct (byte_at buf o =? 0) eqn:Q; [reflexivity|]. apply (IH (o + 1) (k - 1)); try lia.
  - assert (k <> 0). { intros ->. rewrite Z.add_0_r in Z0. lia. } lia.
  - replace (o + 1 + (k - 1)) with (o + k) by lia. exact Z0.
Qed.

Definition written_table : list sect :=
  map (fun k => let j := 0 + Z.of_nat k in mkSect (names_at + word_at img (24 + 12 * j)) (entry_off img j) (entry_size img j)) (seq 0 (length secs)).

Lemma img_bytes : bytes img.
Proof.
  destruct W as (W1 & _ & W3 & W4).
  assert (L4 : forall v, bytes (le4 v)) by (intros v; unfold le4; repeat (apply Forall_cons; [unfold is_byte; lia|]); apply Forall_nil).
  unfold write_image. cbv zeta. unfold bytes. rewrite !Forall_app.
  split; [apply L4|]. split; [unfold le2; repeat (apply Forall_cons; [unfold is_byte; lia|]); apply Forall_nil|].
  assert (Z0 : Forall is_byte [0]) by (apply Forall_cons; [unfold is_byte; lia|apply Forall_nil]). split; [exact Z0|].
  split; [apply L4|]. split; [apply L4|]. split; [apply Forall_cons; [unfold is_byte; lia|apply Forall_nil]|].
  split; [apply L4|]. split; [apply L4|]. split.
  - generalize 0 at 1. generalize (u32 (HDR + SECT * n) + names_length secs). clear - L4. induction secs as [|s l IH]; intros a b; cbn [write_table]; [constructor|].
    unfold bytes in *. rewrite !Forall_app. auto.
  - split.
    + apply Forall_flat_map. eapply Forall_impl; [|exact W3]. intros s (A & _). apply Forall_app. split; [exact A|exact Z0].
    + apply Forall_flat_map. eapply Forall_impl; [|exact W3]. intros s (_ & _ & A). exact A.
Qed.

Lemma split_nth {X} (l : list X) k d : (k < length l)%nat -> exists a b, l = a ++ nth k l d :: b /\ length a = k.
Proof.
  intros L. destruct (nth_split l d L) as (a & b & E & La). eauto.
Qed.

Lemma container_written : container img = IGood written_table.
Proof.
  destruct image_parts as (_ & C & St & Dt & _ & N & _ & L). pose proof W as (W1 & _ & W3 & W4).
  pose proof (names_length_nonneg secs). pose proof (data_length_nonneg secs).
  apply le4_word in St; [|unfold is_u32; lia]. apply le4_word in Dt; [|unfold is_u32; lia].
  pose proof (bytes_at_nth _ _ _ C 0 ltac:(cbn; lia)) as C0. rewrite Z.add_0_r in C0. change (nth (Z.to_nat 0) [n] 0) with n in C0.
  assert (N1 : names_length secs >= 1).
  { destruct secs as [|s l]; [cbn in W1; lia|]. unfold names_length. cbn [fold_right]. fold (names_length l). pose proof (names_length_nonneg l). pose proof (blen_nonneg (se_name s)). lia. }
  unfold container. rewrite rd4_ok by lia. cbn [ibind]. rewrite St. destruct (_ <=? _) eqn:Q; [lia|].
  rewrite rd1_ok by lia. cbn [ibind]. rewrite C0. unfold HDR, SECT. destruct (blen img <? 24 + n * 12) eqn:Q2; [lia|].
  rewrite rd4_ok by lia. cbn [ibind]. rewrite Dt.
  assert (U : u32 (data_at - names_at) = names_length secs) by (unfold u32; rewrite Z.mod_small by lia; lia).
  destruct (read_sections_ok img names_at data_at (Z.to_nat n) 0 0) as (r & E & F); [lia|lia| |].
  { intros j J. rewrite U. destruct (split_nth secs (Z.to_nat j) (mkSection [] [])) as (a & b & E & La); [lia|].
    destruct (entry_at a _ b E) as (X1 & _ & _ & _ & _ & X6 & _). rewrite La, Z2Nat.id in X1 by lia. rewrite X1.
    pose proof (blen_nonneg (se_name (nth (Z.to_nat j) secs (mkSection [] [])))). lia. }
  rewrite E. cbn [ibind]. apply read_sections_good in E as (A & A2 & _). rewrite U in A2.
  rewrite (find_nul_ok img _ (names_at + snd r) (names_length secs - 1 - snd r)); try lia.
  - cbn [ibind negb]. rewrite F. unfold written_table. rewrite Nat2Z.id. reflexivity.
  - replace (names_at + snd r + (names_length secs - 1 - snd r)) with (names_at + (names_length secs - 1)) by lia.
    destruct (exists_last (l := secs)) as (a & s & E); [intros ->; cbn in W1; lia|].
    pose proof (entry_at a s [] E) as (_ & _ & _ & X4 & _). apply string_at_end in X4.
    replace (names_at + (names_length secs - 1)) with (names_at + names_length a + blen (se_name s)); [exact X4|].
    rewrite E at 3. rewrite names_length_app. unfold names_length at 3. cbn [fold_right]. lia.
Qed.

Lemma listed_written : Forall (listed img) written_table.
Proof. apply container_good; [exact img_bytes|exact container_written]. Qed.

Lemma in_written e : In e written_table -> exists a s b, secs = a ++ s :: b /\
  e = mkSect (names_at + names_length a) (data_at + data_length a) (blen (se_bytes s)).
Proof.
  unfold written_table. intros H. apply in_map_iff in H as (k & <- & K). apply in_seq in K. cbv zeta.
  destruct (split_nth secs k (mkSection [] [])) as (a & b & E & La); [lia|]. exists a, (nth k secs (mkSection [] [])), b. split; [exact E|].
  destruct (entry_at a _ b E) as (X1 & X2 & X3 & _). rewrite La in *. rewrite !Z.add_0_l. rewrite X1, X2, X3. reflexivity.
Qed.

Lemma find_written s : In s secs -> exists e, find_section img written_table (se_name s) = IGood (Some e) /\
  section_bytes img e = se_bytes s /\ sc_size e = blen (se_bytes s) /\ (se_bytes s <> [] -> valid_section img e = true).
Proof.
  intros I. pose proof W as (W1 & WD & W3 & W4).
  assert (NZ : Forall (fun c => c <> 0) (se_name s)) by (apply (proj1 (Forall_forall _ _) W3 s I)).
  destruct (find_section_ok img (se_name s) NZ written_table listed_written) as (r & R & X).
  destruct (in_split s secs I) as (a & b & E). destruct (entry_at a s b E) as (X1 & X2 & X3 & X4 & X5 & _).
  destruct r as [e|].
  - destruct X as [Ie Se]. apply in_written in Ie as (a' & s' & b' & E' & ->). cbn [sc_name] in Se.
    destruct (entry_at a' s' b' E') as (_ & _ & _ & Y4 & Y5 & _). pose proof (string_unique _ _ _ _ Se Y4) as SN.
    assert (S' : s' = s).
    { clear - WD E E' SN I. rewrite E' in *. revert WD I SN. clear. intros WD I SN. rewrite map_app in WD. cbn [map] in WD.
      apply NoDup_remove_2 in WD. apply in_app_or in I as [I|[I|I]]; [|exact I|]; exfalso; apply WD; apply in_or_app; rewrite <- SN;
        [left|right]; apply in_map; exact I. }
    subst s'. eexists. split; [exact R|]. cbn [sc_size]. split; [|split; [reflexivity|]].
    + unfold section_bytes. cbn [sc_off sc_size]. apply bytes_at_take. exact Y5.
    + intros NE. apply bytes_at_inside in Y5. unfold valid_section. cbn [sc_off sc_size].
      assert (0 < blen (se_bytes s)) by (destruct (se_bytes s); [congruence|rewrite blen_cons; pose proof (blen_nonneg l); lia]).
      destruct (_ <=? _) eqn:Q; [lia|]. lia.
  - exfalso. set (k := length a). apply (X (mkSect (names_at + names_length a) (data_at + data_length a) (blen (se_bytes s)))).
    + unfold written_table. apply in_map_iff. exists k. split.
      * cbv zeta. rewrite !Z.add_0_l. unfold k. rewrite X1, X2, X3. reflexivity.
      * apply in_seq. unfold k. rewrite E, app_length. cbn [length]. lia.
    + exact X4.
Qed.

Lemma find_absent name : Forall (fun c => c <> 0) name -> ~ In name (map se_name secs) -> find_section img written_table name = IGood None.
Proof.
  intros NZ NI. destruct (find_section_ok img name NZ written_table listed_written) as (r & R & X). destruct r as [e|]; [|exact R].
  exfalso. destruct X as [Ie Se]. apply in_written in Ie as (a & s & b & E & ->). cbn [sc_name] in Se.
  destruct (entry_at a s b E) as (_ & _ & _ & Y4 & _). apply NI. rewrite (string_unique _ _ _ _ Se Y4). rewrite E. apply in_map.
  apply in_or_app. right. left. reflexivity.
Qed.
End Written.

(* ---- The name table. ---- *)
Definition tab_ok (t : nametab) : Prop :=
  0 <= nt_size t < two32 /\ blen (nametab_bytes t) = nt_size t /\
  forall s o, In (s, o) (nt_entries t) -> bytes_at (nametab_bytes t) o (s ++ [0]).

Lemma name_add_ok t s t1 o : tab_ok t -> blen s + 1 < two32 -> name_add t s = Some (t1, o) ->
  tab_ok t1 /\ In (s, o) (nt_entries t1) /\ (forall e, In e (nt_entries t) -> In e (nt_entries t1)).
Proof.
  intros (S0 & L & H) SL E. unfold name_add in E. destruct (List.find _ _) as [e|] eqn:F.
  - injection E as <- <-. apply find_some in F as [F1 F2]. destruct e as [s' o']. cbn [fst snd] in *.
    destruct (list_eq_dec Z.eq_dec s' s) as [->|]; [|discriminate]. split; [exact (conj S0 (conj L H))|]. auto.
  - destruct (negb _) eqn:Q; [discriminate|]. injection E as <- <-. pose proof (blen_nonneg s).
    unfold u32_add_safe, u32 in Q. rewrite Z.mod_small in Q by lia. rewrite Z.mod_mod in Q by (unfold two32; lia). rewrite (Z.mod_small (blen s + 1)) in Q by lia.
    assert (NB : nametab_bytes (mkNametab (nt_entries t ++ [(s, nt_size t)]) (u32 (nt_size t + blen s + 1))) = nametab_bytes t ++ (s ++ [0])).
    { unfold nametab_bytes. cbn [nt_entries]. rewrite flat_map_app. cbn [flat_map fst]. rewrite app_nil_r. reflexivity. }
    split; [|split].
    + unfold tab_ok. rewrite NB. cbn [nt_size nt_entries]. unfold u32. rewrite Z.mod_small by lia. split; [lia|]. split.
      * rewrite !blen_app, L. cbn. lia.
      * intros s' o' I. apply in_app_or in I as [I|[I|[]]].
        -- destruct (H s' o' I) as (p & q & E & Lp). exists p, (q ++ s ++ [0]). rewrite E. rewrite <- !app_assoc. auto.
        -- injection I as <- <-. exists (nametab_bytes t), []. rewrite app_nil_r. auto.
    + cbn [nt_entries]. apply in_or_app. right. left. reflexivity.
    + intros e I. cbn [nt_entries]. apply in_or_app. left. exact I.
Qed.

Lemma name_add_all_ok : forall l t t1 os, tab_ok t -> Forall (fun s => blen s + 1 < two32) l -> name_add_all t l = Some (t1, os) ->
  tab_ok t1 /\ (forall e, In e (nt_entries t) -> In e (nt_entries t1)) /\ Forall2 (fun s o => In (s, o) (nt_entries t1)) l os.
Proof.
  induction l as [|s l IH]; intros t t1 os T F H; cbn [name_add_all] in H.
  - injection H as <- <-. split; [exact T|]. split; [auto|constructor].
  - destruct (name_add t s) as [[t2 o]|] eqn:E; [|discriminate]. destruct (name_add_all t2 l) as [[t3 os']|] eqn:E2; [|discriminate].
    injection H as <- <-. inversion F as [|? ? F1 F2]; subst. destruct (name_add_ok t s t2 o T F1 E) as (T2 & I2 & M2).
    destruct (IH t2 t3 os' T2 F2 E2) as (T3 & M3 & A). split; [exact T3|]. split; [auto|]. constructor; auto.
Qed.

Lemma Forall2_impl' {A B} (P Q : A -> B -> Prop) : forall l m, (forall a b, In a l -> P a b -> Q a b) -> Forall2 P l m -> Forall2 Q l m.
Proof.
  intros l m H F. induction F as [|a b l m P0 F IH]; constructor.
  - apply H; [left; reflexivity|exact P0].
  - apply IH. intros x0 y0 I. apply H. right. exact I.
Qed.

Lemma names_resolve l t os rest : Forall (fun s => Forall (fun c => c <> 0) s /\ blen s + 1 < two32) l ->
  name_add_all (mkNametab [] 0) l = Some (t, os) ->
  blen (nametab_bytes t) = nt_size t /\ Forall2 (fun s o => string_at (nametab_bytes t ++ rest) o s) l os.
Proof.
  intros F H. assert (T0 : tab_ok (mkNametab [] 0)).
  { split; [cbn; unfold two32; lia|]. split; [reflexivity|]. intros s o []. }
  destruct (name_add_all_ok l _ t os T0) as ((S0 & L & T) & _ & A); [eapply Forall_impl; [|exact F]; intros s X; apply X|exact H|].
  split; [exact L|]. eapply Forall2_impl'; [|exact A]. intros s o I X. apply string_bytes_at.
  - destruct (T s o X) as (p & q & E & Lp). exists p, (q ++ rest). rewrite E, <- !app_assoc. auto.
  - apply (proj1 (Forall_forall _ _) F s I).
Qed.

(* The same string twice has the same offset; different strings have different offsets. *)
Lemma names_shared l t os i j oi oj s : Forall (fun s => Forall (fun c => c <> 0) s /\ blen s + 1 < two32) l ->
  name_add_all (mkNametab [] 0) l = Some (t, os) -> nth_error l i = Some s -> nth_error l j = Some s ->
  nth_error os i = Some oi -> nth_error os j = Some oj -> oi = oj.
Proof.
  intros F H. assert (T0 : tab_ok (mkNametab [] 0)).
  { split; [cbn; unfold two32; lia|]. split; [reflexivity|]. intros s' o []. }
  assert (G : forall l t t1 os, NoDup (map fst (nt_entries t)) -> name_add_all t l = Some (t1, os) -> NoDup (map fst (nt_entries t1))).
  { clear. induction l as [|s l IH]; intros t t1 os N H; cbn [name_add_all] in H; [injection H as <- _; exact N|].
    destruct (name_add t s) as [[t2 o]|] eqn:E; [|discriminate]. destruct (name_add_all t2 l) as [[t3 os']|] eqn:E2; [|discriminate].
    injection H as <- _. apply (IH t2 t3 os'); [|exact E2]. unfold name_add in E. destruct (List.find _ _) as [e|] eqn:FD; [injection E as <- _; exact N|].
    destruct (negb _); [discriminate|]. injection E as <- _. cbn [nt_entries]. rewrite map_app. cbn [map fst].
    apply (NoDup_Add (a := s) (l := map fst (nt_entries t))); [rewrite <- (app_nil_r (map fst (nt_entries t))) at 1; apply Add_app|].
    split; [exact N|]. intros I. apply in_map_iff in I as ([s' o'] & Es & I). cbn in Es. subst s'.
    apply (find_none _ _ FD) in I. cbn [fst] in I.
    destruct (list_eq_dec Z.eq_dec s s) as [_|NE]; [discriminate I|apply NE; reflexivity]. }
  destruct (name_add_all_ok l _ t os T0) as (_ & _ & A); [eapply Forall_impl; [|exact F]; intros q X; apply X|exact H|].
  pose proof (G l (mkNametab [] 0) t os (NoDup_nil _) H) as ND. intros Li Lj Oi Oj.
  assert (X : forall k o, nth_error l k = Some s -> nth_error os k = Some o -> In (s, o) (nt_entries t)).
  { clear - A. intros k o. revert k. induction A as [|x y l os P A IH]; intros [|k] E1 E2; cbn in *; try discriminate; [congruence|eauto]. }
  pose proof (X i oi Li Oi) as Ii. pose proof (X j oj Lj Oj) as Ij. clear - ND Ii Ij.
  induction (nt_entries t) as [|[q o] es IH]; [easy|]. cbn in ND. inversion ND as [|? ? N1 N2]; subst.
  destruct Ii as [Ii|Ii], Ij as [Ij|Ij]; [congruence| | |auto].
  - injection Ii as <- <-. exfalso. apply N1. apply in_map_iff. exists (q, oj). auto.
  - injection Ij as <- <-. exfalso. apply N1. apply in_map_iff. exists (q, oi). auto.
Qed.

(* ---- RTTI tables. ---- *)
Lemma concat_rows w : forall rows, Forall (fun r => blen r = w) rows -> blen (concat rows) = w * Z.of_nat (length rows).
Proof.
  induction rows as [|r rows IH]; intros F; cbn [concat length]; [cbn; lia|]. inversion F; subst. rewrite blen_app, IH by assumption. lia.
Qed.
Lemma concat_row buf o w : forall rows i r, Forall (fun r => blen r = w) rows -> bytes_at buf o (concat rows) -> nth_error rows i = Some r ->
  bytes_at buf (o + w * Z.of_nat i) r.
Proof.
  intros rows. revert o. induction rows as [|x rows IH]; intros o [|i] r F H E; cbn in E; try discriminate; cbn [concat] in H; rewrite bytes_at_app in H;
    destruct H as [H1 H2]; inversion F as [|? ? F1 F2]; subst.
  - injection E as ->. replace (o + blen r * Z.of_nat 0) with o by lia. exact H1.
  - replace (o + blen x * Z.of_nat (S i)) with (o + blen x + blen x * Z.of_nat i) by lia. apply IH; assumption.
Qed.

Lemma rtti_written buf s w rws : 0 <= w -> Forall (fun r => blen r = w) rws -> 12 + w * Z.of_nat (length rws) < two32 -> Z.of_nat (length rws) < two32 -> w < two32 ->
  valid_section buf s = true -> sc_size s = blen (rtti_bytes w rws) -> section_bytes buf s = rtti_bytes w rws -> 0 <= sc_off s ->
  valid_rtti_header buf s = IGood true /\ row_total buf (sc_off s) = Z.of_nat (length rws) /\
  forall i r, nth_error rws i = Some r -> bytes_at buf (row_at buf (sc_off s) (Z.of_nat i)) r.
Proof.
  intros W0 F T N W2 V SZ SB O'. pose proof V as V'. unfold valid_section in V'.
  assert (LB : blen (rtti_bytes w rws) = 12 + w * Z.of_nat (length rws)).
  { unfold rtti_bytes. rewrite !blen_app, !le4_length, (concat_rows w) by assumption. lia. }
  assert (IN : sc_off s + sc_size s <= blen buf).
  { destruct (_ <=? _) eqn:Q in V'; [discriminate|]. lia. }
  assert (B : bytes_at buf (sc_off s) (rtti_bytes w rws)).
  { rewrite <- SB. unfold section_bytes. apply take_bytes_at; lia. }
  unfold rtti_bytes in B. rewrite bytes_at_app in B. destruct B as [B1 B]. rewrite le4_length in B.
  rewrite bytes_at_app in B. destruct B as [B2 B]. rewrite le4_length in B.
  rewrite bytes_at_app in B. destruct B as [B3 B4]. rewrite le4_length in B4. unfold u32 in B3. rewrite Z.mod_small in B3 by lia.
  apply le4_word in B1; [|unfold is_u32, two32; lia]. apply le4_word in B2; [|unfold is_u32; lia]. apply le4_word in B3; [|unfold is_u32; lia].
  replace (sc_off s + 4 + 4) with (sc_off s + 8) in * by lia.
  split; [|split].
  - unfold valid_rtti_header. rewrite V. cbn [negb]. destruct (_ <? 12) eqn:Q; [lia|]. rewrite !rd4_ok by lia. cbn [ibind]. rewrite B1, B2, B3.
    destruct (sc_size s <? 12) eqn:Q2; [lia|]. unfold u32_mul_safe, u32_add_safe.
    assert (U : u32 (w * Z.of_nat (length rws)) = w * Z.of_nat (length rws)) by (unfold u32; rewrite Z.mod_small by lia; reflexivity).
    rewrite !U. rewrite (u32_id w), (u32_id (Z.of_nat (length rws))) by (unfold is_u32; lia). change (u32 12) with 12.
    assert (Q3 : (w * Z.of_nat (length rws) <? two32) = true) by (clear - T; lia). rewrite Q3. cbn [negb].
    assert (Q4 : (w * Z.of_nat (length rws) + 12 <? two32) = true) by (clear - T; lia). rewrite Q4. cbn [negb].
    f_equal. rewrite (u32_id (12 + w * Z.of_nat (length rws))); [|unfold is_u32; pose proof (Z.mul_nonneg_nonneg w (Z.of_nat (length rws))); lia].
    clear - SZ LB. lia.
  - unfold row_total. exact B3.
  - intros i r I. unfold row_at. rewrite B1, B2. replace (sc_off s + 12) with (sc_off s + 8 + 4) by lia. apply (concat_row buf _ w rws); assumption.
Qed.
