(* The words that tell frames apart can be taken apart again. *)
From Coq Require Import ZArith List Bool Lia ZifyBool.
From Verif Require Import Base Trace_Model.
Import ListNotations.
Local Open Scope Z_scope.
Ltac Zify.zify_post_hook ::= idtac.

Lemma lor_shift : forall n a b, 0 <= n -> 0 <= b < 2 ^ n -> Z.lor (Z.shiftl a n) b = a * 2 ^ n + b.
Proof.
  intros n a b N B. rewrite <- Z.shiftl_mul_pow2 by exact N.
  assert (L : Z.land (Z.shiftl a n) b = 0).
  { apply Z.bits_inj'. intros k K. rewrite Z.land_spec, Z.bits_0.
    destruct (Z.ltb_spec k n) as [l | l].
    - rewrite Z.shiftl_spec_low by exact l. reflexivity.
    - destruct (Z.eq_dec b 0) as [-> | nz]; [rewrite Z.bits_0; apply andb_false_r|].
      rewrite (Z.bits_above_log2 b k), andb_false_r; [reflexivity | lia |].
      assert (Z.log2 b < n) by (apply Z.log2_lt_pow2; lia). lia. }
  rewrite <- Z.lxor_lor by exact L. symmetry. apply Z.add_nocarry_lxor. exact L.
Qed.

Lemma encode_exit_val : forall ty p, 0 <= ty < 8 -> encode_exit ty p = p * 8 + ty.
Proof. intros ty p T. unfold encode_exit. rewrite lor_shift; [reflexivity | lia | exact T]. Qed.

Lemma frame_word_val : forall ty id, 0 <= ty < two32 ->
  frame_word ty id = (id * two32 + ty) mod two64.
Proof.
  intros ty id T. unfold frame_word, u64. rewrite lor_shift; [reflexivity | lia | exact T].
Qed.

Lemma frame_word_split : forall ty id, 0 <= ty < two31 ->
  frame_word ty id = u32 id * two32 + ty.
Proof.
  intros ty id T. rewrite frame_word_val by (unfold two31, two32 in *; lia). unfold u32.
  unfold two31 in T.
  replace (id * two32 + ty) with ((id mod two32) * two32 + ty + (id / two32) * two64)
    by (rewrite (Z.div_mod id two32) at 3 by discriminate; unfold two32, two64; ring).
  rewrite Z.mod_add by discriminate. apply Z.mod_small.
  pose proof (Z.mod_pos_bound id two32 ltac:(reflexivity)). unfold two32, two64 in *. lia.
Qed.

Lemma frame_type_word : forall ty id, 0 <= ty < two31 -> frame_type (frame_word ty id) = ty.
Proof.
  intros ty id T. rewrite frame_word_split by exact T. unfold frame_type, wrap32.
  replace (u32 id * two32 + ty + two31) with (ty + two31 + u32 id * two32) by ring.
  rewrite Z.mod_add by discriminate. rewrite Z.mod_small; unfold two31, two32 in *; lia.
Qed.

Lemma function_id_word : forall ty id, 0 <= ty < two31 ->
  function_id (frame_word ty id) = wrap32 id.
Proof.
  intros ty id T. rewrite frame_word_split by exact T. unfold function_id.
  rewrite Z.shiftr_div_pow2 by lia. change (2 ^ 32) with two32.
  rewrite Z.add_comm, Z.div_add by discriminate.
  rewrite Z.div_small by (unfold two31, two32 in *; lia). cbn [Z.add].
  unfold wrap32, u32. rewrite Z.add_mod_idemp_l by discriminate. reflexivity.
Qed.

Lemma wrap32_small : forall x, 0 <= x < two31 -> wrap32 x = x.
Proof.
  intros x X. unfold wrap32. rewrite Z.mod_small; unfold two31, two32 in *; lia.
Qed.

Lemma u64_small : forall x, 0 <= x < two64 -> u64 x = x.
Proof. intros. apply Z.mod_small. assumption. Qed.
Lemma u32_small : forall x, 0 <= x < two32 -> u32 x = x.
Proof. intros. apply Z.mod_small. assumption. Qed.

(* The word of an exit frame. *)
Lemma exit_id : forall ty p, 0 <= ty < 8 -> 0 <= p < 2 ^ 28 ->
  function_id (frame_word t_exit (encode_exit ty p)) = p * 8 + ty.
Proof.
  intros ty p T P. rewrite function_id_word by (split; [discriminate | reflexivity]).
  rewrite encode_exit_val by exact T. apply wrap32_small. unfold two31. lia.
Qed.

Lemma exit_round : forall ty p, 0 <= ty < 8 -> 0 <= p < 2 ^ 28 ->
  let v := u64 (function_id (frame_word t_exit (encode_exit ty p))) in
  exit_type v = ty /\ u32 (exit_payload v) = p.
Proof.
  intros ty p T P v. unfold v. rewrite exit_id by assumption.
  rewrite u64_small by (unfold two64; lia). split.
  - unfold exit_type. change 7 with (Z.ones 3). rewrite Z.land_ones by lia.
    change (2 ^ 3) with 8. rewrite Z.add_comm, Z.mod_add by lia. apply Z.mod_small. exact T.
  - unfold exit_payload. rewrite Z.shiftr_div_pow2 by lia. change (2 ^ 3) with 8.
    rewrite Z.add_comm, Z.div_add by lia. rewrite (Z.div_small ty) by exact T.
    apply u32_small. unfold two32. lia.
Qed.

(* u32 does not show in the word. *)
Lemma frame_word_u32 : forall ty id, 0 <= ty < two31 -> frame_word ty (u32 id) = frame_word ty id.
Proof.
  intros ty id T. rewrite !frame_word_split by exact T. f_equal. f_equal.
  unfold u32. apply Z.mod_mod. discriminate.
Qed.
