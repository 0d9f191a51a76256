From Verif Require Import Base Base_Proofs Bits_Model Bits_Spec.
From Coq Require Import ZifyBool.
Ltac Zify.zify_post_hook ::= Z.div_mod_to_equations.

(* Every word is a 64-bit word. *)
Definition word_ok (w : Z) : Prop := 0 <= w < two64.
Definition good (b : bitset) : Prop := Forall word_ok b.

Lemma land_mask w p : 0 <= p -> negb (Z.land w (bit_mask p) =? 0) = Z.testbit w p.
Proof.
  intros P. unfold bit_mask. destruct (Z.testbit w p) eqn:E.
  - destruct (Z.eqb_spec (Z.land w (2 ^ p)) 0) as [Q|Q]; [|reflexivity].
    assert (Z.testbit (Z.land w (2 ^ p)) p = true) as T by (rewrite Z.land_spec, E, Z.pow2_bits_true by lia; reflexivity).
    rewrite Q, Z.bits_0 in T. discriminate.
  - replace (Z.land w (2 ^ p)) with 0; [reflexivity|]. symmetry. apply Z.bits_inj'. intros k K.
    rewrite Z.land_spec, Z.bits_0. destruct (Z.eq_dec k p) as [->|N]; [now rewrite E|].
    rewrite Z.pow2_bits_false by lia. apply andb_false_r.
Qed.

Lemma test_nth b x : 0 <= x -> test b x = Z.testbit (nth (word_for_bit x) b 0) (pos_in_word x).
Proof.
  intros X. unfold test. destruct (Nat.leb (length b) (word_for_bit x)) eqn:E.
  - apply Nat.leb_le in E. rewrite nth_overflow by exact E. now rewrite Z.bits_0.
  - apply land_mask. unfold pos_in_word, kBitsPerWord. lia.
Qed.

Lemma nth_update b i f j d : (i < length b)%nat ->
  nth j (update b i f) d = if Nat.eqb i j then f (nth i b d) else nth j b d.
Proof.
  revert i j. induction b as [|w b IH]; intros [|i] [|j] L; cbn in *; try lia; auto. apply IH. lia.
Qed.
Lemma length_update b i f : length (update b i f) = length b.
Proof. revert i. induction b as [|w b IH]; intros [|i]; cbn; auto. Qed.
Lemma nth_grow b n j : nth j (grow b n) 0 = nth j b 0.
Proof.
  unfold grow. destruct (Nat.lt_ge_cases j (length b)) as [L|L].
  - now rewrite app_nth1.
  - rewrite app_nth2, (nth_overflow b) by lia.
    destruct (Nat.lt_ge_cases (j - length b) (n - length b)).
    + apply nth_repeat.
    + apply nth_overflow. now rewrite repeat_length.
Qed.
Lemma length_grow b n : length (grow b n) = Nat.max (length b) n.
Proof. unfold grow. rewrite app_length, repeat_length. lia. Qed.

Lemma good_update b i f : good b -> (forall w, word_ok w -> word_ok (f w)) -> good (update b i f).
Proof.
  intros G F. revert i. induction G as [|w b W G IH]; intros [|i]; cbn; try constructor; auto; try apply F; auto.
  apply IH.
Qed.
Lemma good_grow b n : good b -> good (grow b n).
Proof.
  intros G. apply Forall_app. split; [exact G|]. apply Forall_forall. intros x H. apply repeat_spec in H. subst.
  unfold word_ok, two64. lia.
Qed.
Lemma good_nth b i : good b -> word_ok (nth i b 0).
Proof.
  intros G. destruct (Nat.lt_ge_cases i (length b)) as [L|L].
  - eapply Forall_forall; [exact G|]. now apply nth_In.
  - rewrite nth_overflow by exact L. unfold word_ok, two64. lia.
Qed.

Lemma word_bits_lt w k : word_ok w -> 64 <= k -> Z.testbit w k = false.
Proof.
  intros [W1 W2] K. destruct (Z.eq_dec w 0) as [->|N]; [apply Z.bits_0|].
  apply Z.bits_above_log2; [lia|]. apply Z.lt_le_trans with 64; [|exact K].
  apply Z.log2_lt_pow2; [lia|]. exact W2.
Qed.
Lemma word_ok_bits w : 0 <= w -> (forall k, 64 <= k -> Z.testbit w k = false) -> word_ok w.
Proof.
  intros W H. split; [exact W|]. change two64 with (2 ^ 64).
  destruct (Z.eq_dec w 0) as [->|N]; [reflexivity|].
  apply Z.log2_lt_pow2; [lia|]. destruct (Z_lt_le_dec (Z.log2 w) 64) as [L|L]; [exact L|].
  specialize (H _ L). rewrite Z.bit_log2 in H by lia. discriminate.
Qed.
Lemma lor_ok a b : word_ok a -> word_ok b -> word_ok (Z.lor a b).
Proof.
  intros A B. apply word_ok_bits; [apply Z.lor_nonneg; split; [apply A|apply B]|].
  intros k K. rewrite Z.lor_spec, !word_bits_lt by auto. reflexivity.
Qed.
Lemma mask_ok p : 0 <= p < 64 -> word_ok (bit_mask p).
Proof.
  intros P. split; [apply Z.pow_nonneg; lia|]. change two64 with (2 ^ 64). apply Z.pow_lt_mono_r; lia.
Qed.

Lemma clear_spec w p k : 0 <= p < 64 -> word_ok w -> 0 <= k ->
  Z.testbit (clear_bit w p) k = (Z.testbit w k && negb (k =? p))%bool.
Proof.
  intros P W K. unfold clear_bit, bit_mask. rewrite Z.land_spec.
  destruct (Z_lt_le_dec k 64) as [L|L]; [|rewrite word_bits_lt by auto; reflexivity].
  f_equal. change (two64 - 1) with (Z.ones 64).
  replace (Z.ones 64 - 2 ^ p) with (Z.ldiff (Z.ones 64) (2 ^ p)).
  - rewrite Z.ldiff_spec, Z.ones_spec_low by lia. rewrite Z.pow2_bits_eqb by lia.
    rewrite (Z.eqb_sym p k). reflexivity.
  - symmetry. apply Z.sub_nocarry_ldiff. apply Z.bits_inj'. intros j J. rewrite Z.ldiff_spec, Z.bits_0.
    destruct (Z.eq_dec j p) as [->|N].
    + rewrite Z.ones_spec_low by lia. apply andb_false_r.
    + rewrite Z.pow2_bits_false by lia. reflexivity.
Qed.
Lemma clear_ok w p : 0 <= p < 64 -> word_ok w -> word_ok (clear_bit w p).
Proof.
  intros P W. apply word_ok_bits.
  - unfold clear_bit. apply Z.land_nonneg. left. apply W.
  - intros k K. rewrite clear_spec by (auto; lia). now rewrite word_bits_lt.
Qed.

Lemma split_bit x : 0 <= x -> x = Z.of_nat (word_for_bit x) * 64 + pos_in_word x /\ 0 <= pos_in_word x < 64.
Proof. intros X. unfold word_for_bit, pos_in_word, kBitsPerWord. lia. Qed.
Lemma same_bit x y : 0 <= x -> 0 <= y ->
  (Nat.eqb (word_for_bit x) (word_for_bit y) && (pos_in_word y =? pos_in_word x))%bool = (y =? x).
Proof.
  intros X Y. destruct (split_bit x X) as [EX _], (split_bit y Y) as [EY _].
  destruct (Nat.eqb_spec (word_for_bit x) (word_for_bit y)) as [E|E]; destruct (Z.eqb_spec (pos_in_word y) (pos_in_word x)) as [F|F];
    cbn; symmetry; (apply Z.eqb_eq || apply Z.eqb_neq); unfold word_for_bit, pos_in_word, kBitsPerWord in *; lia.
Qed.

Lemma test_set b x y : 0 <= x -> 0 <= y -> test (set_bit b x) y = ((y =? x) || test b y)%bool.
Proof.
  intros X Y. rewrite !test_nth by lia. unfold set_bit.
  set (b' := if Nat.leb (length b) (word_for_bit x) then grow b (S (word_for_bit x)) else b).
  assert (L : (word_for_bit x < length b')%nat).
  { unfold b'. destruct (Nat.leb (length b) (word_for_bit x)) eqn:E; [rewrite length_grow; lia|apply Nat.leb_gt in E; exact E]. }
  assert (N : forall j, nth j b' 0 = nth j b 0).
  { intros j. unfold b'. destruct (Nat.leb _ _); [apply nth_grow|reflexivity]. }
  rewrite nth_update by exact L. rewrite <- same_bit by lia.
  destruct (Nat.eqb_spec (word_for_bit x) (word_for_bit y)) as [E|E]; cbn [andb orb]; rewrite N; [|reflexivity].
  destruct (split_bit x X) as [_ PX], (split_bit y Y) as [_ PY].
  rewrite Z.lor_spec, E, orb_comm. f_equal. unfold bit_mask. rewrite Z.pow2_bits_eqb by lia. apply Z.eqb_sym.
Qed.
Lemma test_unset b x y : good b -> 0 <= x -> 0 <= y -> test (unset b x) y = (test b y && negb (y =? x))%bool.
Proof.
  intros G X Y. rewrite !test_nth by lia. unfold unset. rewrite <- same_bit by lia.
  destruct (split_bit x X) as [_ PX], (split_bit y Y) as [_ PY].
  destruct (Nat.ltb_spec (word_for_bit x) (length b)) as [L|L].
  - rewrite nth_update by exact L. destruct (Nat.eqb_spec (word_for_bit x) (word_for_bit y)) as [E|E]; cbn [andb negb].
    + rewrite clear_spec by (auto using good_nth; lia). now rewrite E.
    + now rewrite andb_true_r.
  - destruct (Nat.eqb_spec (word_for_bit x) (word_for_bit y)) as [E|E]; cbn [andb negb]; [|now rewrite andb_true_r].
    rewrite nth_overflow by lia. now rewrite Z.bits_0.
Qed.
Lemma good_set b x : good b -> 0 <= x -> good (set_bit b x).
Proof.
  intros G X. unfold set_bit. apply good_update.
  - destruct (Nat.leb _ _); [now apply good_grow|exact G].
  - intros w W. apply lor_ok; [exact W|]. apply mask_ok. apply split_bit; lia.
Qed.
Lemma good_unset b x : good b -> 0 <= x -> good (unset b x).
Proof.
  intros G X. unfold unset. destruct (Nat.ltb _ _); [|exact G]. apply good_update; [exact G|].
  intros w W. apply clear_ok; [apply split_bit; lia|exact W].
Qed.

(* Union. *)
Lemma nth_or_front b : forall o j, nth j (or_front b o) 0 =
  if Nat.ltb j (length b) then Z.lor (nth j b 0) (nth j o 0) else 0.
Proof.
  induction b as [|w b IH]; intros o j.
  - destruct o, j; reflexivity.
  - destruct o as [|x o]; cbn [or_front].
    + destruct (Nat.ltb_spec j (length (w :: b))) as [L|L].
      * rewrite (nth_overflow (@nil Z)) by (cbn; lia). now rewrite Z.lor_0_r.
      * now rewrite nth_overflow.
    + destruct j as [|j]; [reflexivity|]. cbn [nth]. rewrite IH. reflexivity.
Qed.
Lemma length_or_front b : forall o, length (or_front b o) = length b.
Proof. induction b as [|w b IH]; intros [|x o]; cbn; auto. Qed.
Lemma nth_or_back rest : forall b i j, (length b <= i)%nat ->
  nth j (or_back b i rest) 0 = if Nat.ltb j i then nth j b 0 else nth (j - i) rest 0.
Proof.
  induction rest as [|o rest IH]; intros b i j L; cbn [or_back].
  - destruct (Nat.ltb_spec j i); [reflexivity|]. rewrite nth_overflow by lia. now destruct (j - i)%nat.
  - set (b' := if o =? 0 then b else update (grow b (S i)) i (fun _ => o)).
    assert (LB : (length b' <= S i)%nat).
    { unfold b'. destruct (o =? 0); [lia|]. rewrite length_update, length_grow. lia. }
    rewrite IH by exact LB.
    assert (NB : nth j b' 0 = if Nat.eqb j i then o else nth j b 0).
    { unfold b'. destruct (o =? 0) eqn:E.
      - destruct (Nat.eqb_spec j i); [|reflexivity]. rewrite nth_overflow by lia. lia.
      - rewrite nth_update by (rewrite length_grow; lia). rewrite nth_grow, (Nat.eqb_sym i j). reflexivity. }
    destruct (Nat.ltb_spec j (S i)) as [A|A], (Nat.ltb_spec j i) as [B|B]; try lia.
    + rewrite NB. destruct (Nat.eqb_spec j i); [lia|reflexivity].
    + rewrite NB. replace j with i by lia. rewrite Nat.eqb_refl, Nat.sub_diag. reflexivity.
    + replace (j - i)%nat with (S (j - S i)) by lia. reflexivity.
Qed.
Lemma nth_skipn' (l : list Z) n j : nth j (skipn n l) 0 = nth (n + j) l 0.
Proof.
  revert l. induction n as [|n IH]; intros [|x l]; cbn; auto. now destruct j.
Qed.
Lemma test_or b o x : 0 <= x -> test (or_with b o) x = (test b x || test o x)%bool.
Proof.
  intros X. rewrite !test_nth by lia. unfold or_with.
  rewrite nth_or_back by (rewrite length_or_front; lia). rewrite nth_or_front, nth_skipn'.
  destruct (Nat.ltb_spec (word_for_bit x) (length b)) as [L|L].
  - now rewrite Z.lor_spec.
  - rewrite (nth_overflow b) by lia. rewrite Z.bits_0. cbn. f_equal. f_equal. lia.
Qed.
Lemma good_or_back r : good r -> forall c i, good c -> good (or_back c i r).
Proof.
  induction 1 as [|x r X R IH]; intros c i C; cbn [or_back]; [exact C|].
  apply IH. destruct (x =? 0); [exact C|]. apply good_update; [now apply good_grow | auto].
Qed.
Lemma good_or b o : good b -> good o -> good (or_with b o).
Proof.
  intros G O. unfold or_with.
  assert (F : good (or_front b o)).
  { revert o O. induction G as [|w b W G IH]; intros o O; [destruct o; constructor|].
    destruct O as [|x o X O]; cbn [or_front]; [now constructor|]. constructor; [now apply lor_ok | now apply IH]. }
  assert (S : good (skipn (length b) o)).
  { rewrite <- (firstn_skipn (length b) o) in O. apply Forall_app in O. apply O. }
  now apply good_or_back.
Qed.

(* Lowest bit. *)
Lemma lowest_spec : forall fuel i w, 0 <= i -> (exists k, i <= k < i + Z.of_nat fuel /\ Z.testbit w k = true) ->
  i <= lowest_from fuel i w < i + Z.of_nat fuel /\ Z.testbit w (lowest_from fuel i w) = true /\
  forall k, i <= k < lowest_from fuel i w -> Z.testbit w k = false.
Proof.
  induction fuel as [|n IH]; intros i w I (k & K & T); [lia|]. cbn [lowest_from].
  destruct (Z.testbit w i) eqn:E.
  - repeat split; try lia. exact E.
  - destruct (IH (i + 1) w ltac:(lia)) as (A & B & C).
    + exists k. split; [|exact T]. destruct (Z.eq_dec k i); [congruence|lia].
    + repeat split; try lia; [exact B|]. intros j J. destruct (Z.eq_dec j i) as [->|N]; [exact E|apply C; lia].
Qed.
Lemma rightmost_spec w : word_ok w -> w <> 0 ->
  0 <= FindRightmostBit w < 64 /\ Z.testbit w (FindRightmostBit w) = true /\
  forall k, 0 <= k < FindRightmostBit w -> Z.testbit w k = false.
Proof.
  intros W N. apply (lowest_spec 64 0 w); [lia|]. exists (Z.log2 w). destruct W as [W1 W2].
  split; [split; [apply Z.log2_nonneg|]|apply Z.bit_log2; lia].
  change (0 + Z.of_nat 64) with 64. apply Z.log2_lt_pow2; [lia|exact W2].
Qed.

(* take_any. *)
Lemma take_rev_spec r : good r ->
  match take_rev r with
  | (r', None) => (forall i, nth i r 0 = 0) /\ r' = []
  | (r', Some x) => exists zs w ws bit, r = zs ++ w :: ws /\ Forall (eq 0) zs /\ w <> 0 /\ bit = FindRightmostBit w /\
       r' = clear_bit w bit :: ws /\ x = Z.of_nat (length ws) * 64 + bit
  end.
Proof.
  induction 1 as [|w r W G IH]; cbn [take_rev].
  - split; [|reflexivity]. intros [|i]; reflexivity.
  - destruct (Z.eqb_spec w 0) as [->|N].
    + destruct (take_rev r) as [r' [x|]].
      * destruct IH as (zs & w' & ws & bit & -> & Z0 & H). exists (0 :: zs), w', ws, bit.
        split; [reflexivity|]. split; [now constructor|exact H].
      * destruct IH as [Z0 ->]. split; [|reflexivity]. intros [|i]; [reflexivity|apply Z0].
    + exists [], w, r, (FindRightmostBit w). repeat split; auto.
Qed.

Lemma take_any_spec b : good b ->
  match take_any b with
  | (b', None) => (forall x, 0 <= x -> test b x = false) /\ b' = []
  | (b', Some x) => 0 <= x /\ test b x = true /\ good b' /\
      forall y, 0 <= y -> test b' y = (test b y && negb (y =? x))%bool
  end.
Proof.
  intros G. unfold take_any. assert (GR : good (rev b)) by now apply Forall_rev.
  pose proof (take_rev_spec (rev b) GR) as H. destruct (take_rev (rev b)) as [r' [x|]].
  - destruct H as (zs & w & ws & bit & E & Z0 & NW & -> & -> & ->). set (bit := FindRightmostBit w) in *.
    assert (B : b = rev ws ++ w :: rev zs).
    { rewrite <- (rev_involutive b), E, rev_app_distr. cbn. now rewrite <- app_assoc. }
    assert (W : word_ok w) by (rewrite E in GR; apply Forall_app in GR as [_ GR]; inversion GR; auto).
    assert (GW : good (rev ws)).
    { rewrite E in GR. apply Forall_app in GR as [_ GR]. inversion GR; subst. now apply Forall_rev. }
    destruct (rightmost_spec w W NW) as (B1 & B2 & _). fold bit in B1, B2.
    assert (X : 0 <= Z.of_nat (length ws) * 64 + bit) by lia.
    assert (WX : word_for_bit (Z.of_nat (length ws) * 64 + bit) = length (rev ws) /\
                 pos_in_word (Z.of_nat (length ws) * 64 + bit) = bit).
    { rewrite rev_length. unfold word_for_bit, pos_in_word, kBitsPerWord. lia. }
    destruct WX as [WX PX].
    assert (NB : forall j, nth j b 0 = if Nat.ltb j (length (rev ws)) then nth j (rev ws) 0
                                       else if Nat.eqb j (length (rev ws)) then w else 0).
    { intros j. rewrite B. destruct (Nat.ltb_spec j (length (rev ws))) as [L|L]; [now rewrite app_nth1|].
      rewrite app_nth2 by lia. destruct (Nat.eqb_spec j (length (rev ws))) as [->|NE]; [now rewrite Nat.sub_diag|].
      destruct (j - length (rev ws))%nat as [|q] eqn:Q; [lia|]. cbn [nth].
      assert (ZR : Forall (eq 0) (rev zs)) by now apply Forall_rev.
      destruct (Nat.lt_ge_cases q (length (rev zs))) as [LQ|LQ]; [|now rewrite nth_overflow].
      symmetry. eapply (proj1 (Forall_forall _ _) ZR). now apply nth_In. }
    split; [exact X|]. split; [|split].
    + rewrite test_nth by exact X. rewrite WX, PX, NB, Nat.ltb_irrefl, Nat.eqb_refl. exact B2.
    + cbn [rev]. apply Forall_app. split; [exact GW|]. constructor; [now apply clear_ok|constructor].
    + intros y Y. rewrite !test_nth by lia. rewrite <- same_bit by lia. rewrite WX, PX, NB.
      cbn [rev]. destruct (split_bit y Y) as [_ PY].
      destruct (Nat.ltb_spec (word_for_bit y) (length (rev ws))) as [L|L].
      * rewrite app_nth1 by exact L. destruct (Nat.eqb_spec (length (rev ws)) (word_for_bit y)); [lia|]. cbn. now rewrite andb_true_r.
      * rewrite app_nth2 by exact L. rewrite (Nat.eqb_sym (length (rev ws))).
        destruct (Nat.eqb_spec (word_for_bit y) (length (rev ws))) as [EQ|NE].
        -- rewrite EQ, Nat.sub_diag. cbn [nth andb]. apply clear_spec; auto; lia.
        -- destruct (word_for_bit y - length (rev ws))%nat as [|q] eqn:Q; [lia|]. cbn [nth andb negb].
           rewrite Z.bits_0. now destruct q; rewrite ?Z.bits_0.
  - destruct H as [Z0 ->]. split; [|reflexivity]. intros x X. rewrite test_nth by exact X.
    replace (nth (word_for_bit x) b 0) with 0; [apply Z.bits_0|].
    destruct (Nat.lt_ge_cases (word_for_bit x) (length b)) as [L|L]; [|now rewrite nth_overflow].
    rewrite <- (rev_involutive b). rewrite rev_nth by (rewrite rev_length; exact L). now rewrite Z0.
Qed.

(* for_each: exactly the members, ascending. *)
Fixpoint ascending (l : list Z) : Prop :=
  match l with a :: ((b :: _) as l') => a < b /\ ascending l' | _ => True end.

(* number of set bits at or above i, a measure for the inner loop *)
Lemma word_bits_spec : forall fuel w base i, word_ok w -> 0 <= i <= 64 ->
  (forall k, 0 <= k < i -> Z.testbit w k = false) -> (64 - i < Z.of_nat fuel) ->
  (forall y, In y (word_bits fuel w base) <-> (base <= y < base + 64 /\ Z.testbit w (y - base) = true)) /\
  ascending (word_bits fuel w base) /\ (forall y, In y (word_bits fuel w base) -> base + i <= y).
Proof.
  induction fuel as [|n IH]; intros w base i W I LOW F; [lia|]. cbn [word_bits].
  destruct (Z.eqb_spec w 0) as [->|N].
  - split; [|split; [exact Logic.I|intros y []]]. intros y. cbn [In]. rewrite Z.bits_0. intuition discriminate.
  - destruct (rightmost_spec w W N) as (B1 & B2 & B3). set (bit := FindRightmostBit w) in *.
    assert (IB : i <= bit).
    { destruct (Z_lt_le_dec bit i) as [L|L]; [|exact L]. rewrite LOW in B2 by lia. discriminate. }
    destruct (IH (clear_bit w bit) base (bit + 1)) as (H1 & H2 & H3); [now apply clear_ok|lia| |lia|].
    { intros k K. rewrite clear_spec by (auto; lia). destruct (Z.eqb_spec k bit) as [->|NE]; [apply andb_false_r|].
      now rewrite B3 by lia. }
    split; [|split].
    + intros y. cbn [In]. rewrite H1. split.
      * intros [<-|[R T]]; [split; [lia|]; now replace (base + bit - base) with bit by lia|].
        split; [exact R|]. rewrite clear_spec in T by (auto; lia). now apply andb_true_iff in T.
      * intros [R T]. destruct (Z.eq_dec (base + bit) y) as [E|NE]; [now left|right]. split; [exact R|].
        rewrite clear_spec by (auto; lia). rewrite T. destruct (Z.eqb_spec (y - base) bit); [lia|reflexivity].
    + destruct (word_bits n (clear_bit w bit) base) as [|z l] eqn:Q; [exact Logic.I|]. split; [|exact H2].
      specialize (H3 z (or_introl eq_refl)). lia.
    + intros y [<-|H]; [lia|]. apply H3 in H. lia.
Qed.
Lemma ascending_app a b : ascending a -> ascending b -> (forall x y, In x a -> In y b -> x < y) -> ascending (a ++ b).
Proof.
  induction a as [|x a IH]; intros A B L; [exact B|]. destruct a as [|x' a].
  - cbn. destruct b as [|y b]; [exact I|]. split; [apply L; cbn; auto|exact B].
  - destruct A as [A1 A2]. cbn [app] in *. split; [exact A1|]. apply IH; auto. intros; apply L; auto. now right.
Qed.
Lemma for_each_from_spec ws : good ws -> forall i, 0 <= i ->
  (forall y, In y (for_each_from i ws) <->
     (i * 64 <= y /\ Z.testbit (nth (Z.to_nat (y / 64 - i)) ws 0) (y mod 64) = true)) /\
  ascending (for_each_from i ws).
Proof.
  induction 1 as [|w ws W G IH]; intros i I.
  - split; [|exact Logic.I]. intros y. cbn [for_each_from In]. split; [intros []|]. intros [_ T].
    rewrite nth_overflow in T by (cbn; lia). now rewrite Z.bits_0 in T.
  - cbn [for_each_from]. destruct (word_bits_spec 65 w (i * kBitsPerWord) 0 W ltac:(lia) ltac:(lia) ltac:(lia)) as (H1 & H2 & H3).
    destruct (IH (i + 1) ltac:(lia)) as (K1 & K2). unfold kBitsPerWord in *. split.
    + intros y. rewrite in_app_iff, H1, K1. split.
      * intros [[R T]|[R T]].
        -- split; [lia|]. replace (y / 64 - i) with 0 by lia. cbn. replace (y mod 64) with (y - i * 64) by lia. exact T.
        -- split; [lia|]. replace (Z.to_nat (y / 64 - i)) with (S (Z.to_nat (y / 64 - (i + 1)))) by lia. exact T.
      * intros [R T]. destruct (Z_lt_le_dec y (i * 64 + 64)) as [L|L].
        -- left. split; [lia|]. replace (y / 64 - i) with 0 in T by lia. cbn in T.
           replace (y mod 64) with (y - i * 64) in T by lia. exact T.
        -- right. split; [lia|]. replace (Z.to_nat (y / 64 - i)) with (S (Z.to_nat (y / 64 - (i + 1)))) in T by lia. exact T.
    + apply ascending_app; auto. intros x y X Y. apply H1 in X as [X _]. apply K1 in Y as [Y _]. lia.
Qed.
Lemma for_each_spec b : good b ->
  (forall y, In y (for_each b) <-> (0 <= y /\ test b y = true)) /\ ascending (for_each b).
Proof.
  intros G. destruct (for_each_from_spec b G 0 ltac:(lia)) as (H1 & H2). split; [|exact H2].
  intros y. unfold for_each. rewrite H1. split; intros [Y T]; (split; [lia|]).
  - rewrite test_nth by lia. unfold word_for_bit, pos_in_word, kBitsPerWord. now rewrite Z.sub_0_r in T.
  - rewrite test_nth in T by lia. unfold word_for_bit, pos_in_word, kBitsPerWord in T. now rewrite Z.sub_0_r.
Qed.

(* Histories. *)
Definition run_nested := (fix go (h : list bop) (b : bitset) :=
                            match h with [] => b | o :: h' => go h' (apply_op o b) end).
Lemma run_nested_eq h b : run_nested h b = apply_all h b.
Proof. revert b. induction h as [|o h IH]; intros b; [reflexivity|]. cbn. apply IH. Qed.
Definition all_natural := (fix go (h : list bop) := match h with [] => True | o :: h' => natural o /\ go h' end).
Lemma all_natural_eq h : all_natural h <-> Forall natural h.
Proof.
  induction h as [|o h IH]; cbn; [split; [constructor|auto]|]. rewrite IH. split.
  - intros [A B]. now constructor.
  - intros H. inversion H; auto.
Qed.

(* An induction principle that sees the histories inside unions. *)
Fixpoint bop_size (o : bop) : nat :=
  match o with
  | Union h => S ((fix go (h : list bop) := match h with [] => O | o :: h' => (bop_size o + go h')%nat end) h)
  | _ => 1%nat
  end.
Definition hist_size (h : list bop) : nat := fold_right (fun o n => (bop_size o + n)%nat) O h.
Lemma bop_size_union h : bop_size (Union h) = S (hist_size h).
Proof. reflexivity. Qed.
Lemma bop_size_pos o : (0 < bop_size o)%nat.
Proof. destruct o; cbn; lia. Qed.

Lemma set_run_left h : forall s s' t, same s s' -> set_run h s t ->  exists t', set_run h s' t' /\ same t t'.
Proof.
  induction h as [|o h IH]; intros s s' t E R; inversion R as [s1 s2 SS|o1 h1 s1 t0 t2 OP RR]; subst.
  - exists t. split; [constructor|intros x X; tauto]. intros x X. rewrite <- (E x X). now apply SS.
  - assert (Q : exists t1, set_op o s' t1 /\ same t0 t1).
    { inversion OP; subst.
      - eexists. split; [constructor|]. intros y Y. cbn. rewrite (E y Y). tauto.
      - eexists. split; [constructor|]. intros y Y. cbn. rewrite (E y Y). tauto.
      - eexists. split; [apply SUnion; eassumption|]. intros y Y. cbn. rewrite (E y Y). tauto.
      - eexists. split; [apply STake; [exact H|now apply E]|]. intros y Y. cbn. rewrite (E y Y). tauto.
      - exists s'. split; [|exact E]. apply STakeNone. intros x X. rewrite <- (E x X). now apply H. }
    destruct Q as (t1 & Q1 & Q2). destruct (IH _ _ _ Q2 RR) as (t' & A & B).
    exists t'. split; [econstructor; eassumption|exact B].
Qed.

Lemma set_run_right h : forall s t u, same t u -> set_run h s t -> set_run h s u.
Proof.
  induction h as [|o h IH]; intros s t u E R; inversion R as [s1 s2 SS|o1 h1 s1 t0 t2 OP RR]; subst.
  - constructor. intros x X. rewrite (SS x X). now apply E.
  - econstructor; [exact OP|]. eapply IH; eassumption.
Qed.

Lemma history_aux : forall n h b, (hist_size h < n)%nat -> Forall natural h -> good b ->
  good (apply_all h b) /\ set_run h (member b) (member (apply_all h b)).
Proof.
  induction n as [|n IHn]; intros h b N F G; [lia|].
  destruct h as [|o h]; [split; [exact G|constructor; intros x X; tauto]|].
  inversion F as [|? ? NO NH]; subst. cbn [hist_size fold_right] in N. change (fold_right _ O h) with (hist_size h) in N.
  pose proof (bop_size_pos o) as BP.
  assert (STEP : good (apply_op o b) /\ exists t, set_op o (member b) t /\ same (member (apply_op o b)) t).
  { destruct o as [x|x|u|]; cbn [natural] in NO.
    - split; [now apply good_set|]. eexists. split; [constructor|]. intros y Y. unfold member. cbn [apply_op].
      rewrite test_set by lia. rewrite orb_true_iff, Z.eqb_eq. reflexivity.
    - split; [now apply good_unset|]. eexists. split; [constructor|]. intros y Y. unfold member. cbn [apply_op].
      rewrite test_unset by (auto; lia). rewrite andb_true_iff, negb_true_iff, Z.eqb_neq. reflexivity.
    - fold all_natural in NO. apply all_natural_eq in NO. cbn [apply_op]. fold run_nested. rewrite run_nested_eq.
      rewrite bop_size_union in N. destruct (IHn u empty_set ltac:(lia) NO (Forall_nil _)) as [GU RU].
      split; [now apply good_or|].
      destruct (set_run_left u (member empty_set) (fun _ => False) (member (apply_all u empty_set))) with (2 := RU) as (t & RT & ST).
      { intros x X. unfold member, empty_set. split; [|tauto]. intros T. rewrite test_nth in T by lia.
        rewrite nth_overflow in T by (cbn; lia). now rewrite Z.bits_0 in T. }
      eexists. split; [apply SUnion; exact RT|]. intros y Y. unfold member in *. rewrite test_or by lia.
      rewrite orb_true_iff. rewrite <- (ST y Y). reflexivity.
    - cbn [apply_op]. pose proof (take_any_spec b G) as T. destruct (take_any b) as [b' [x|]]; cbn [fst].
      + destruct T as (X & TX & GB & TB). split; [exact GB|]. eexists. split; [apply (STake x); [exact X|exact TX]|].
        intros y Y. unfold member. rewrite TB by lia. rewrite andb_true_iff, negb_true_iff, Z.eqb_neq. reflexivity.
      + destruct T as (TN & ->). split; [constructor|]. exists (member b). split.
        * apply STakeNone. intros x X M. unfold member in M. rewrite TN in M by lia. discriminate.
        * intros y Y. unfold member. rewrite (TN y Y). rewrite test_nth by lia.
          rewrite nth_overflow by (cbn; lia). rewrite Z.bits_0. reflexivity. }
  destruct STEP as [GO (t & SO & ST)].
  destruct (IHn h (apply_op o b) ltac:(lia) NH GO) as [GA RA]. cbn [apply_all fold_left]. split; [exact GA|].
  destruct (set_run_left h (member (apply_op o b)) t _ ST RA) as (u & RU & SU).
  econstructor; [exact SO|]. eapply set_run_right; [|exact RU]. intros x X. symmetry. now apply SU.
Qed.

Lemma history_spec h : Forall natural h ->
  good (apply_all h empty_set) /\ set_run h (member empty_set) (member (apply_all h empty_set)).
Proof. intros F. eapply history_aux; [apply Nat.lt_succ_diag_r|exact F|constructor]. Qed.
Lemma empty_spec x : 0 <= x -> ~ member empty_set x.
Proof.
  intros X T. unfold member, empty_set in T. rewrite test_nth in T by lia.
  rewrite nth_overflow in T by (cbn; lia). now rewrite Z.bits_0 in T.
Qed.

Lemma built_good b : built b -> good b.
Proof. intros (h & H & ->). now apply history_spec. Qed.

Example history_example :
  let b := apply_all [Insert 3; Insert 200; Union [Insert 64; Insert 130]; Remove 200; TakeAny] empty_set in
  for_each b = [3; 64] /\ Forall natural [Insert 3; Insert 200; Union [Insert 64; Insert 130]; Remove 200; TakeAny].
Proof. split; [vm_compute; reflexivity|]. repeat (apply Forall_cons; [cbn; lia|]). apply Forall_nil. Qed.

Lemma history_from_empty h : Forall natural h -> set_run h (fun _ => False) (member (apply_all h empty_set)).
Proof.
  intros F. destruct (history_spec h F) as [_ R].
  destruct (set_run_left h (member empty_set) (fun _ => False) (member (apply_all h empty_set))) as (t & A & B); [|exact R|].
  - intros x X. split; [now apply empty_spec|intros []].
  - eapply set_run_right; [|exact A]. intros x X. symmetry. now apply B.
Qed.
Lemma insert_spec b x y : built b -> 0 <= x -> 0 <= y -> (member (set_bit b x) y <-> y = x \/ member b y).
Proof. intros _ X Y. unfold member. rewrite test_set by lia. now rewrite orb_true_iff, Z.eqb_eq. Qed.
Lemma remove_spec b x y : built b -> 0 <= x -> 0 <= y -> (member (unset b x) y <-> member b y /\ y <> x).
Proof.
  intros B X Y. unfold member. rewrite test_unset by (auto using built_good; lia).
  now rewrite andb_true_iff, negb_true_iff, Z.eqb_neq.
Qed.
Lemma union_spec b c y : built b -> built c -> 0 <= y -> (member (or_with b c) y <-> member b y \/ member c y).
Proof. intros _ _ Y. unfold member. rewrite test_or by lia. now rewrite orb_true_iff. Qed.
Lemma take_spec b : built b ->
  match take_any b with
  | (b', Some x) => 0 <= x /\ member b x /\ forall y, 0 <= y -> (member b' y <-> member b y /\ y <> x)
  | (b', None) => forall y, 0 <= y -> ~ member b y /\ ~ member b' y
  end.
Proof.
  intros B. pose proof (take_any_spec b (built_good b B)) as T. destruct (take_any b) as [b' [x|]].
  - destruct T as (X & M & _ & H). split; [exact X|]. split; [exact M|]. intros y Y. unfold member. rewrite H by lia.
    now rewrite andb_true_iff, negb_true_iff, Z.eqb_neq.
  - destruct T as (H & ->). intros y Y. split; [unfold member; rewrite (H y Y); discriminate|now apply empty_spec].
Qed.
Lemma ascending_head a l : ascending (a :: l) -> forall x, In x l -> a < x.
Proof.
  revert a. induction l as [|b l IH]; intros a A x X; [destruct X|]. destruct A as [A1 A2].
  destruct X as [<-|X]; [exact A1|]. pose proof (IH b A2 x X). lia.
Qed.
Lemma ascending_nth l : ascending l -> forall i j, (i < j < length l)%nat -> nth i l 0 < nth j l 0.
Proof.
  induction l as [|a l IH]; intros A i j L; [cbn in L; lia|]. destruct j as [|j]; [lia|]. cbn [nth length] in *.
  destruct i as [|i].
  - apply (ascending_head a l A). apply nth_In. lia.
  - apply IH; [|lia]. destruct l; [exact I|apply A].
Qed.
Lemma iterate_spec b : built b ->
  (forall y, In y (for_each b) <-> 0 <= y /\ member b y) /\
  (forall i j, (i < j < length (for_each b))%nat -> nth i (for_each b) 0 < nth j (for_each b) 0).
Proof.
  intros B. destruct (for_each_spec b (built_good b B)) as [H A]. split; [exact H|]. now apply ascending_nth.
Qed.
