(* 32- and 64-bit arithmetic of the machine against the interpreter's. *)
From Verif Require Import Base Rt_Model Interp_Model X64_Model X64_Spec Base_Proofs Mem_Proofs X64_Step.
From Coq Require Import ZifyBool Lia.
Ltac Zify.zify_post_hook ::= Z.div_mod_to_equations.

Lemma u32_cong a b : u32 a = u32 b <-> (a - b) mod two32 = 0.
Proof. unfold u32, two32. lia. Qed.
Lemma u32_add a b : u32 (u32 a + u32 b) = u32 (a + b). Proof. unfold u32, two32. lia. Qed.
Lemma u32_addr a b : u32 (u32 a + b) = u32 (a + b). Proof. unfold u32, two32. lia. Qed.
Lemma u32_sub a b : u32 (u32 a - u32 b) = u32 (a - b). Proof. unfold u32, two32. lia. Qed.
Lemma u32_subr a b : u32 (u32 a - b) = u32 (a - b). Proof. unfold u32, two32. lia. Qed.
Lemma u32_opp a : u32 (- u32 a) = u32 (- a). Proof. unfold u32, two32. lia. Qed.
Lemma u32_mul a b : u32 (u32 a * u32 b) = u32 (a * b).
Proof. unfold u32. symmetry. apply Z.mul_mod. discriminate. Qed.
Lemma u32_mulr a b : u32 (u32 a * b) = u32 (a * b).
Proof. unfold u32. apply Z.mul_mod_idemp_l. discriminate. Qed.
Lemma u32_lnot a : u32 (Z.lnot (u32 a)) = u32 (Z.lnot a).
Proof. rewrite !Z.lnot_spec || idtac. unfold Z.lnot. unfold u32, two32. lia. Qed.
Lemma u32_bits z n : 0 <= n -> Z.testbit (u32 z) n = (n <? 32) && Z.testbit z n.
Proof.
  intros H. unfold u32. change two32 with (2 ^ 32). destruct (n <? 32) eqn:E.
  - rewrite Z.mod_pow2_bits_low by lia. reflexivity.
  - rewrite Z.mod_pow2_bits_high by lia. reflexivity.
Qed.
Ltac bits32 := apply Z.bits_inj'; intros n Hn; rewrite ?u32_bits, ?Z.land_spec, ?Z.lor_spec, ?Z.lxor_spec, ?u32_bits by assumption;
  destruct (n <? 32); cbn [andb]; reflexivity.
Lemma u32_land a b : u32 (Z.land (u32 a) (u32 b)) = u32 (Z.land a b). Proof. bits32. Qed.
Lemma u32_lor a b : u32 (Z.lor (u32 a) (u32 b)) = u32 (Z.lor a b). Proof. bits32. Qed.
Lemma u32_lxor a b : u32 (Z.lxor (u32 a) (u32 b)) = u32 (Z.lxor a b). Proof. bits32. Qed.
Lemma u32_landr a b : u32 (Z.land (u32 a) b) = u32 (Z.land a b). Proof. bits32. Qed.
Lemma u64_bits z n : 0 <= n -> Z.testbit (u64 z) n = (n <? 64) && Z.testbit z n.
Proof.
  intros H. unfold u64. change two64 with (2 ^ 64). destruct (n <? 64) eqn:E.
  - rewrite Z.mod_pow2_bits_low by lia. reflexivity.
  - rewrite Z.mod_pow2_bits_high by lia. reflexivity.
Qed.
Ltac bits64 := apply Z.bits_inj'; intros n Hn; rewrite ?u64_bits, ?Z.land_spec, ?Z.lor_spec, ?Z.lxor_spec, ?u64_bits by assumption;
  destruct (n <? 64); cbn [andb]; reflexivity.
Lemma u64_land a b : u64 (Z.land (u64 a) (u64 b)) = u64 (Z.land a b). Proof. bits64. Qed.
Lemma u64_lor a b : u64 (Z.lor (u64 a) (u64 b)) = u64 (Z.lor a b). Proof. bits64. Qed.
Lemma u64_lxor a b : u64 (Z.lxor (u64 a) (u64 b)) = u64 (Z.lxor a b). Proof. bits64. Qed.
Lemma u64_add a b : u64 (u64 a + u64 b) = u64 (a + b). Proof. unfold u64, two64. lia. Qed.
Lemma u64_sub a b : u64 (u64 a - u64 b) = u64 (a - b). Proof. unfold u64, two64. lia. Qed.
Lemma u64_opp a : u64 (- u64 a) = u64 (- a). Proof. unfold u64, two64. lia. Qed.
Lemma u64_mul a b : u64 (u64 a * u64 b) = u64 (a * b).
Proof. unfold u64. symmetry. apply Z.mul_mod. discriminate. Qed.
Lemma u64_lnot a : u64 (Z.lnot (u64 a)) = u64 (Z.lnot a).
Proof. unfold Z.lnot, u64, two64. lia. Qed.
Lemma u64_u64 z : u64 (u64 z) = u64 z. Proof. unfold u64. rewrite Z.mod_mod; [reflexivity|discriminate]. Qed.
Lemma u64_u32 z : u64 (u32 z) = u32 z. Proof. unfold u64, u32, two32, two64. lia. Qed.
Lemma u32_u64 z : u32 (u64 z) = u32 z. Proof. unfold u64, u32, two32, two64. lia. Qed.
Lemma wrap64_u64 z : wrap64 (u64 z) = wrap64 z. Proof. unfold wrap64, u64, two63, two64. lia. Qed.
Lemma u64_wrap64 z : u64 (wrap64 z) = u64 z. Proof. unfold wrap64, u64, two63, two64. lia. Qed.
Lemma wrap32_u64 z : wrap32 (u64 z) = wrap32 z. Proof. unfold wrap32, u64, two31, two32, two64. lia. Qed.
Lemma wrap64_of_u64 z : is_i64 z -> wrap64 (u64 z) = z.
Proof. intros. rewrite wrap64_u64. now apply wrap64_id. Qed.
Lemma u64_bounds z : 0 <= u64 z < two64. Proof. unfold u64, two64. lia. Qed.
Lemma i32_i64 z : is_i32 z -> is_i64 z. Proof. unb. lia. Qed.

(* cmp: equality and the signed and unsigned orders. *)
Lemma cmp32 A B p a : is_i32 p -> is_i32 a -> u32 A = u32 p -> u32 B = u32 a ->
  zf (cmp_flags L A B) = (p =? a) /\ xorb (sf (cmp_flags L A B)) (ofl (cmp_flags L A B)) = (p <? a) /\
  cf (cmp_flags L A B) = (u32 p <? u32 a).
Proof.
  intros P0 A0 EA EB. cbn [cmp_flags zf sf ofl cf mask signed]. rewrite <- (u32_sub A B), EA, EB, u32_sub. rewrite wrap32_u32.
  replace (wrap32 A) with p by (rewrite <- (wrap32_u32 A), EA, wrap32_u32; symmetry; now apply wrap32_id).
  replace (wrap32 B) with a by (rewrite <- (wrap32_u32 B), EB, wrap32_u32; symmetry; now apply wrap32_id).
  clear - P0 A0. unfold u32, wrap32. unb. split; [lia|]. split; [|reflexivity]. lia.
Qed.
Lemma cmp64 A B p a : is_i64 p -> is_i64 a -> u64 A = u64 p -> u64 B = u64 a ->
  zf (cmp_flags Q A B) = (p =? a) /\ xorb (sf (cmp_flags Q A B)) (ofl (cmp_flags Q A B)) = (p <? a) /\
  cf (cmp_flags Q A B) = (u64 p <? u64 a).
Proof.
  intros P0 A0 EA EB. cbn [cmp_flags zf sf ofl cf mask signed]. rewrite <- (u64_sub A B), EA, EB, u64_sub. rewrite wrap64_u64.
  replace (wrap64 A) with p by (rewrite <- (wrap64_u64 A), EA, wrap64_u64; symmetry; now apply wrap64_id).
  replace (wrap64 B) with a by (rewrite <- (wrap64_u64 B), EB, wrap64_u64; symmetry; now apply wrap64_id).
  clear - P0 A0. unfold u64, wrap64. unb. split; [lia|]. split; [|reflexivity]. lia.
Qed.
Lemma eval_cond f c p a : match c with Zero | NotZero => False | _ => True end ->
  zf f = (p =? a) -> xorb (sf f) (ofl f) = (p <? a) -> cond (OpToCondition c) f = eval_cmp c p a.
Proof.
  intros H Z0 L0. destruct c; try contradiction; cbn [OpToCondition cond eval_cmp]; rewrite ?Z0, ?L0; try reflexivity; lia.
Qed.
Lemma setal_zero b : u32 0 - u32 0 mod 256 + b2z b = b2z b.
Proof. change (u32 0) with 0. destruct b; reflexivity. Qed.
Lemma b2z_u32 b : u32 (b2z b) = b2z b. Proof. destruct b; reflexivity. Qed.
Lemma b2z_movzx z b : (z - z mod 256 + b2z b) mod 256 = b2z b.
Proof. destruct b; cbn [b2z]; lia. Qed.

(* Shifts. *)
Lemma shl_32 p n : 0 <= n < 32 -> u32 (Z.shiftl (u32 p) n) = u32 (Z.shiftl p n).
Proof. intros. rewrite !Z.shiftl_mul_pow2 by lia. apply u32_mulr. Qed.
Lemma shl_64 p n : 0 <= n < 64 -> u64 (Z.shiftl (u64 p) n) = u64 (Z.shiftl p n).
Proof. intros. rewrite !Z.shiftl_mul_pow2 by lia. unfold u64. apply Z.mul_mod_idemp_l. discriminate. Qed.
Lemma count32 a : 0 <= a < 32 -> (u32 (u32 a) mod 256) mod 32 = a.
Proof. intros. rewrite u32_u32, u32_small by (unfold two32; lia). rewrite (Z.mod_small a 256) by lia. apply Z.mod_small. lia. Qed.
Lemma count64 a : 0 <= a < 64 -> (u64 a mod 256) mod 64 = a.
Proof. intros. rewrite u64_id by (unfold two64; lia). rewrite (Z.mod_small a 256) by lia. apply Z.mod_small. lia. Qed.

(* Division: the dividend is sign-extended into edx:eax. *)
Lemma sext32 p : is_i32 p -> wrap64 (u32 (u32 (Z.shiftr (wrap32 (u32 p)) 31)) * two32 + u32 (u32 p)) = p.
Proof.
  intros H. rewrite wrap32_of_u32 by assumption. rewrite Z.shiftr_div_pow2 by lia. change (2 ^ 31) with 2147483648.
  unfold u32, wrap64. unb. assert (D : p / 2147483648 = 0 \/ p / 2147483648 = -1) by lia. destruct D as [E|E]; rewrite E.
  - change ((0 mod 4294967296) mod 4294967296) with 0. lia.
  - change ((-1 mod 4294967296) mod 4294967296) with 4294967295. lia.
Qed.
Lemma sext64 p : is_i64 p -> wrap64 (u64 (Z.shiftr (wrap64 (u64 p)) 63)) * two64 + u64 p = p.
Proof.
  intros H. rewrite (wrap64_of_u64 p) by assumption. rewrite Z.shiftr_div_pow2 by lia. change (2 ^ 63) with 9223372036854775808.
  unfold u64, wrap64. unb. assert (D : p / 9223372036854775808 = 0 \/ p / 9223372036854775808 = -1) by lia. destruct D as [E|E]; rewrite E.
  - change (((0 mod 18446744073709551616) + 9223372036854775808) mod 18446744073709551616 - 9223372036854775808) with 0. lia.
  - change (((-1 mod 18446744073709551616) + 9223372036854775808) mod 18446744073709551616 - 9223372036854775808) with (-1). lia.
Qed.
Lemma quot_range N d v : 1 < N -> - N <= d < N -> v <> 0 -> ~ (v = -1 /\ d = - N) ->
  - N <= Z.quot d v < N /\ - N <= Z.rem d v < N.
Proof.
  intros M D V O. pose proof (Z.quot_rem' d v) as QR. pose proof (Z.rem_bound_abs d v V) as RB.
  assert (RD : Z.abs (Z.rem d v) <= Z.abs d).
  { destruct (Z_le_gt_dec (Z.abs v) (Z.abs d)); [lia|]. replace (Z.rem d v) with d; [lia|]. symmetry. apply Z.rem_small_iff; lia. }
  assert (RN : Z.rem d v < N).
  { destruct (Z_lt_ge_dec d 0); [|lia]. pose proof (Z.rem_nonpos d v V ltac:(lia)). lia. }
  split; [|lia].
  destruct (Z.eq_dec v 1) as [-> |]; [rewrite Z.quot_1_r; assumption|]. destruct (Z.eq_dec v (-1)) as [-> |].
  - replace (Z.quot d (-1)) with (- d); [lia|]. change (-1) with (- (1)). rewrite Z.quot_opp_r by lia. now rewrite Z.quot_1_r.
  - assert (B : Z.abs (Z.quot d v) <= Z.abs d / 2).
    { rewrite <- Z.quot_abs by assumption. rewrite Z.quot_div_nonneg by lia. apply Z.div_le_compat_l; lia. }
    clear QR RB RD RN. lia.
Qed.
Lemma lea4 z p : u64 (z + u64 p * 4 + 0) = u64 (z + 4 * p).
Proof. unfold u64, two64. lia. Qed.
Lemma mod_u32 p : u32 p mod 256 = p mod 256.
Proof. unfold u32, two32. symmetry. apply Znumtheory.Zmod_div_mod; try lia. now exists 16777216. Qed.
(* An unsigned 64-bit comparison of a sign-extended cell with an unsigned 32-bit limit. *)
Lemma above_u64 p n : is_i32 p -> is_i32 n -> (u64 p >? u32 n) = false -> (u32 p <? u32 n) || (p =? n) = true.
Proof. unfold is_i32, u64, u32, two31, two32, two64. lia. Qed.
(* Comparing the low halves of two pointers into a block that does not cross a 4 GiB boundary. *)
Lemma window_above base A B : base mod two32 + B < two32 -> 0 <= A <= B -> cond above (cmp_flags L (u64 (base + A)) (base + B)) = false.
Proof.
  intros W H. cbn [cond cmp_flags cf zf mask]. rewrite <- (u32_sub (u64 (base + A))), !u32_u64, u32_sub.
  assert (U : forall z, 0 <= z <= B -> u32 (base + z) = base mod two32 + z).
  { intros z Hz. unfold u32. rewrite <- Z.add_mod_idemp_l by discriminate. apply Z.mod_small. pose proof (Z.mod_pos_bound base two32). unfold two32 in *. lia. }
  rewrite (U A), (U B) by lia. destruct (Z.eq_dec A B) as [E|E].
  - replace (base + A - (base + B)) with 0 by lia. change (u32 0) with 0. rewrite Z.eqb_refl. now rewrite orb_true_r.
  - replace (base mod two32 + A <? base mod two32 + B) with true by lia. reflexivity.
Qed.

(* 64-bit values in memory. *)
Lemma byte_of_wrap64 k v : 0 <= k < 8 -> byte_of k (wrap64 v) = byte_of k v.
Proof.
  intros H. unfold byte_of. assert (K : k = 0 \/ k = 1 \/ k = 2 \/ k = 3 \/ k = 4 \/ k = 5 \/ k = 6 \/ k = 7) by lia.
  destruct K as [E|[E|[E|[E|[E|[E|[E|E]]]]]]]; rewrite E; cbn [Z.mul Pos.mul Z.pow Z.pow_pos Pos.iter]; unfold wrap64, two63, two64; clear; lia.
Qed.
Lemma store64_cong m a v w z : u64 v = u64 w -> store64 m a (wrap64 v) z = store64 m a w z.
Proof.
  intros E. rewrite <- (wrap64_u64 v), E, wrap64_u64. unfold store64. destruct ((a <=? z) && (z <? a + 8)) eqn:C; [|reflexivity].
  apply byte_of_wrap64. lia.
Qed.
Lemma low_load64 m a : u32 (wrap32 (load64 m a)) = u32 (load32 m a).
Proof. rewrite u32_wrap32. unfold load64, wrap64, u32, two63, two64, two32. lia. Qed.
Lemma test64 v : is_i64 v -> negb (zf (test_flags Q (u64 v) (u64 v))) = negb (v =? 0).
Proof.
  intros V. cbn [test_flags zf mask]. rewrite Z.land_diag, u64_u64. f_equal. unfold is_i64, two63, u64, two64 in *. lia.
Qed.
Lemma store64_two m a v z : store64 m a v z = store32 (store32 m (a + 4) (v / two32)) a v z.
Proof.
  rewrite store64_split. unfold store32. destruct ((a + 4 <=? z) && (z <? a + 4 + 4)) eqn:C1; destruct ((a <=? z) && (z <? a + 4)) eqn:C2; try reflexivity. lia.
Qed.
Lemma store64_load m a s z :
  store64 m a (wrap64 (u64 (load64 m s))) z = store32 (store32 m (a + 4) (load32 m (s + 4))) a (load32 m s) z.
Proof.
  rewrite wrap64_u64, (wrap64_id (load64 m s)) by apply load64_range. rewrite store64_two. unfold load64.
  assert (H : forall lo hi, is_i32 lo -> is_i32 hi -> (wrap64 (u32 lo + two32 * hi)) / two32 = hi).
  { intros lo hi Hl Hh. rewrite wrap64_id by (unfold u32; unb; lia). rewrite Z.add_comm, Z.mul_comm, Z.div_add_l by discriminate.
    rewrite Z.div_small; [lia|]. apply u32_bounds. }
  rewrite H by apply load32_range. unfold store32.
  destruct ((a <=? z) && (z <? a + 4)) eqn:C; [|reflexivity].
  rewrite <- (byte_of_wrap32 (z - a) (wrap64 _)) by lia. f_equal. rewrite <- wrap32_u32.
  replace (u32 (wrap64 (u32 (load32 m s) + two32 * load32 m (s + 4)))) with (u32 (load32 m s)).
  - rewrite wrap32_u32. apply wrap32_id, load32_range.
  - unfold wrap64, u32, two63, two64, two32. lia.
Qed.
