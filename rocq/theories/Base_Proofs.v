From Verif Require Import Base.
From Coq Require Import ZifyBool.
Ltac Zify.zify_post_hook ::= Z.div_mod_to_equations.

Ltac unb := unfold is_i32, is_u32, is_i64, is_byte, is_i32b, is_i64b, two31, two32, two63, two64 in *.

Lemma wrap32_range z : is_i32 (wrap32 z).
Proof. unfold wrap32; unb; lia. Qed.
Lemma wrap32_id z : is_i32 z -> wrap32 z = z.
Proof. unfold wrap32; unb; lia. Qed.
Lemma wrap64_range z : is_i64 (wrap64 z).
Proof. unfold wrap64; unb; lia. Qed.
Lemma wrap64_id z : is_i64 z -> wrap64 z = z.
Proof. unfold wrap64; unb; lia. Qed.
Lemma u32_range z : is_u32 (u32 z).
Proof. unfold u32; unb; lia. Qed.
Lemma u32_id z : is_u32 z -> u32 z = z.
Proof. unfold u32; unb; lia. Qed.
Lemma wrap32_mod z : exists k, wrap32 z = z + k * two32.
Proof. unfold wrap32. exists (- ((z + two31) / two32)). unb; lia. Qed.
Lemma wrap32_u32 z : wrap32 (u32 z) = wrap32 z.
Proof. unfold wrap32, u32; unb; lia. Qed.
Lemma u32_wrap32 z : u32 (wrap32 z) = u32 z.
Proof. unfold wrap32, u32; unb; lia. Qed.
Lemma wrap32_wrap32 z : wrap32 (wrap32 z) = wrap32 z.
Proof. apply wrap32_id, wrap32_range. Qed.
Lemma wrap32_eq_mod a b : (a - b) mod two32 = 0 -> wrap32 a = wrap32 b.
Proof. unfold wrap32; unb; lia. Qed.

Lemma byte_of_range k v : is_byte (byte_of k v).
Proof. unfold byte_of, is_byte. apply Z.mod_pos_bound; lia. Qed.

Lemma byte_of_0 v : byte_of 0 v = v mod 256.
Proof. unfold byte_of. change (2 ^ (8 * 0)) with 1. now rewrite Z.div_1_r. Qed.
Lemma byte_of_1 v : byte_of 1 v = (v / 256) mod 256.
Proof. reflexivity. Qed.
Lemma byte_of_2 v : byte_of 2 v = (v / 65536) mod 256.
Proof. reflexivity. Qed.
Lemma byte_of_3 v : byte_of 3 v = (v / 16777216) mod 256.
Proof. reflexivity. Qed.

Lemma bytes4 v :
  (byte_of 0 v + 256 * byte_of 1 v + 65536 * byte_of 2 v + 16777216 * byte_of 3 v) = v mod two32.
Proof. rewrite byte_of_0, byte_of_1, byte_of_2, byte_of_3. unb. lia. Qed.

Lemma load32_store32_same m a v : load32 (store32 m a v) a = wrap32 v.
Proof.
  unfold load32, store32.
  replace ((a <=? a) && (a <? a + 4)) with true by lia.
  replace ((a <=? a + 1) && (a + 1 <? a + 4)) with true by lia.
  replace ((a <=? a + 2) && (a + 2 <? a + 4)) with true by lia.
  replace ((a <=? a + 3) && (a + 3 <? a + 4)) with true by lia.
  replace (a - a) with 0 by lia. replace (a + 1 - a) with 1 by lia.
  replace (a + 2 - a) with 2 by lia. replace (a + 3 - a) with 3 by lia.
  rewrite bytes4. apply wrap32_u32.
Qed.

Lemma load32_ext m m' a :
  (forall x, a <= x < a + 4 -> m x = m' x) -> load32 m a = load32 m' a.
Proof. intros H. unfold load32. rewrite !H by lia. reflexivity. Qed.

Lemma load32_store32_other m a b v :
  a + 4 <= b \/ b + 4 <= a -> load32 (store32 m a v) b = load32 m b.
Proof.
  intros H. apply load32_ext. intros x Hx. unfold store32.
  replace ((a <=? x) && (x <? a + 4)) with false by lia. reflexivity.
Qed.

Lemma load32_range m a : is_i32 (load32 m a).
Proof. apply wrap32_range. Qed.
Lemma load64_range m a : is_i64 (load64 m a).
Proof. apply wrap64_range. Qed.

Lemma store32_out m a v x : x < a \/ a + 4 <= x -> store32 m a v x = m x.
Proof. intros. unfold store32. replace ((a <=? x) && (x <? a + 4)) with false by lia. reflexivity. Qed.

Lemma store64_out m a v x : x < a \/ a + 8 <= x -> store64 m a v x = m x.
Proof. intros. unfold store64. replace ((a <=? x) && (x <? a + 8)) with false by lia. reflexivity. Qed.

Lemma store64_split m a v x : store64 m a v x = store32 (store32 m a v) (a + 4) (v / two32) x.
Proof.
  unfold store64, store32.
  destruct (Z_lt_ge_dec x a). { replace ((a <=? x) && (x <? a + 8)) with false by lia.
    replace ((a + 4 <=? x) && (x <? a + 4 + 4)) with false by lia.
    replace ((a <=? x) && (x <? a + 4)) with false by lia. reflexivity. }
  destruct (Z_lt_ge_dec x (a + 4)). { replace ((a <=? x) && (x <? a + 8)) with true by lia.
    replace ((a + 4 <=? x) && (x <? a + 4 + 4)) with false by lia.
    replace ((a <=? x) && (x <? a + 4)) with true by lia. reflexivity. }
  destruct (Z_lt_ge_dec x (a + 8)). { replace ((a <=? x) && (x <? a + 8)) with true by lia.
    replace ((a + 4 <=? x) && (x <? a + 4 + 4)) with true by lia.
    unfold byte_of. rewrite Z.div_div by (unb; try apply Z.pow_pos_nonneg; lia).
    f_equal. f_equal. unfold two32. change 4294967296 with (2 ^ 32). rewrite <- Z.pow_add_r by lia. f_equal. lia. }
  replace ((a <=? x) && (x <? a + 8)) with false by lia.
  replace ((a + 4 <=? x) && (x <? a + 4 + 4)) with false by lia.
  replace ((a <=? x) && (x <? a + 4)) with false by lia. reflexivity.
Qed.

Lemma load64_ext m m' a :
  (forall x, a <= x < a + 8 -> m x = m' x) -> load64 m a = load64 m' a.
Proof.
  intros H. unfold load64.
  rewrite (load32_ext m m' a), (load32_ext m m' (a + 4)); [reflexivity| |]; intros; apply H; lia.
Qed.

Lemma load64_store64_same m a v : load64 (store64 m a v) a = wrap64 v.
Proof.
  rewrite (load64_ext _ (store32 (store32 m a v) (a + 4) (v / two32))) by (intros; apply store64_split).
  unfold load64. rewrite load32_store32_same.
  rewrite load32_store32_other by lia. rewrite load32_store32_same.
  rewrite u32_wrap32. unfold u32, wrap32, wrap64. unb. lia.
Qed.

Lemma load64_store64_other m a b v :
  a + 8 <= b \/ b + 8 <= a -> load64 (store64 m a v) b = load64 m b.
Proof. intros. apply load64_ext. intros. apply store64_out. lia. Qed.

Lemma write_bytes_out l : forall m a x, x < a \/ a + Z.of_nat (length l) <= x ->
  write_bytes m a l x = m x.
Proof.
  induction l as [|b l IH]; intros; cbn [write_bytes length] in *; [reflexivity|].
  rewrite IH by lia. destruct (x =? a) eqn:E; lia.
Qed.

Lemma write_bytes_in l : forall m a k, 0 <= k < Z.of_nat (length l) ->
  write_bytes m a l (a + k) = nth (Z.to_nat k) l 0.
Proof.
  induction l as [|b l IH]; intros m a k Hk; cbn [write_bytes length] in *; [lia|].
  destruct (Z.eq_dec k 0) as [->|Hn].
  - rewrite write_bytes_out by lia. rewrite Z.add_0_r, Z.eqb_refl. reflexivity.
  - replace (a + k) with (a + 1 + (k - 1)) by lia. rewrite IH by lia.
    replace (Z.to_nat k) with (S (Z.to_nat (k - 1))) by lia. reflexivity.
Qed.
