From Verif Require Import Base Base_Proofs Rtti_Proofs Md5_Model Md5_Spec.
From Coq Require Import ZifyBool.
Ltac Zify.zify_post_hook ::= Z.div_mod_to_equations.

Definition w32 (x : Z) : Prop := 0 <= x < two32.
Lemma w32_high x k : w32 x -> 32 <= k -> Z.testbit x k = false.
Proof.
  intros [A B] K. destruct (Z.eq_dec x 0) as [->|N]; [apply Z.bits_0|].
  apply Z.bits_above_log2; [lia|]. apply Z.lt_le_trans with 32; [|exact K]. apply Z.log2_lt_pow2; [lia|exact B].
Qed.
Lemma w32_u32 x : w32 (u32 x).
Proof. apply Z.mod_pos_bound. reflexivity. Qed.
Lemma w32_bits x : 0 <= x -> (forall k, 32 <= k -> Z.testbit x k = false) -> w32 x.
Proof.
  intros W H. split; [exact W|]. change two32 with (2 ^ 32). destruct (Z.eq_dec x 0) as [->|N]; [reflexivity|].
  apply Z.log2_lt_pow2; [lia|]. destruct (Z_lt_le_dec (Z.log2 x) 32) as [L|L]; [exact L|].
  specialize (H _ L). rewrite Z.bit_log2 in H by lia. discriminate.
Qed.
Lemma not32_bit x k : w32 x -> 0 <= k < 32 -> Z.testbit (not32 x) k = negb (Z.testbit x k).
Proof.
  intros W K. unfold not32. change (two32 - 1) with (Z.ones 32).
  replace (Z.ones 32 - x) with (Z.ldiff (Z.ones 32) x).
  - rewrite Z.ldiff_spec, Z.ones_spec_low by lia. reflexivity.
  - symmetry. apply Z.sub_nocarry_ldiff. apply Z.bits_inj'. intros j J. rewrite Z.ldiff_spec, Z.bits_0.
    destruct (Z_lt_le_dec j 32) as [L|L]; [rewrite Z.ones_spec_low by lia; apply andb_false_r|now rewrite w32_high].
Qed.
Lemma w32_not x : w32 x -> w32 (not32 x).
Proof. unfold w32, not32, two32. lia. Qed.

Definition gather (g : Z -> bool) (l : list Z) : Z := fold_right (fun k acc => (if g k then 2 ^ k else 0) + acc) 0 l.
Lemma gather_snoc g l v : gather g (l ++ [v]) = gather g l + (if g v then 2 ^ v else 0).
Proof.
  unfold gather. induction l as [|w l IH]; cbn [app fold_right]; [lia|]. rewrite IH. lia.
Qed.
Lemma gather_range g n : 0 <= gather g (map Z.of_nat (seq 0 n)) < 2 ^ Z.of_nat n.
Proof.
  induction n as [|n IH]; [cbn; lia|]. rewrite seq_S, map_app. cbn [map Nat.add]. rewrite gather_snoc.
  rewrite Nat2Z.inj_succ, Z.pow_succ_r by lia. destruct (g (Z.of_nat n)); lia.
Qed.
Lemma gather_bits g : forall n k, 0 <= k ->
  Z.testbit (gather g (map Z.of_nat (seq 0 n))) k = (if k <? Z.of_nat n then g k else false).
Proof.
  induction n as [|n IH]; intros k K.
  { cbn [seq map]. unfold gather. cbn [fold_right]. rewrite Z.bits_0. destruct (Z.ltb_spec k (Z.of_nat 0)); [lia|reflexivity]. }
  rewrite seq_S, map_app. cbn [map Nat.add]. rewrite gather_snoc. pose proof (gather_range g n) as RG. specialize (IH k K).
  set (r := gather g (map Z.of_nat (seq 0 n))) in *.
  assert (E : r + (if g (Z.of_nat n) then 2 ^ Z.of_nat n else 0) = Z.lor r ((if g (Z.of_nat n) then 1 else 0) * 2 ^ Z.of_nat n)).
  { rewrite lor_add by lia. destruct (g (Z.of_nat n)); lia. }
  rewrite E, Z.lor_spec, IH.
  assert (B : Z.testbit ((if g (Z.of_nat n) then 1 else 0) * 2 ^ Z.of_nat n) k = (g k && (k =? Z.of_nat n))%bool).
  { destruct (Z.eqb_spec k (Z.of_nat n)) as [->|N].
    + rewrite andb_true_r. destruct (g (Z.of_nat n)); [rewrite Z.mul_1_l, Z.pow2_bits_true by lia; reflexivity|now rewrite Z.bits_0].
    + rewrite andb_false_r. destruct (g (Z.of_nat n)); [rewrite Z.mul_1_l, Z.pow2_bits_false by lia; reflexivity|now rewrite Z.bits_0]. }
  rewrite B. destruct (Z.ltb_spec k (Z.of_nat n)), (Z.eqb_spec k (Z.of_nat n)), (Z.ltb_spec k (Z.of_nat (S n))); try lia; destruct (g k); reflexivity.
Qed.
Lemma bitwise_bits f x y z k : 0 <= k ->
  Z.testbit (bitwise f x y z) k = (if k <? 32 then f (Z.testbit x k) (Z.testbit y k) (Z.testbit z k) else false).
Proof.
  intros K. exact (gather_bits (fun k => f (Z.testbit x k) (Z.testbit y k) (Z.testbit z k)) 32 k K).
Qed.

Definition kind_at (i : Z) : kind := if i <? 16 then FF else if i <? 32 then GG else if i <? 48 then HH else II.
Lemma mix_is i x y z : w32 x -> w32 y -> w32 z -> mix (kind_at i) x y z = round_function i x y z.
Proof.
  intros X Y Z0. apply Z.bits_inj'. intros k K. unfold round_function, kind_at.
  destruct (Z_lt_le_dec k 32) as [L|L];
    destruct (i <? 16); [|destruct (i <? 32); [|destruct (i <? 48)]| |destruct (i <? 32); [|destruct (i <? 48)]]; cbn [mix]; rewrite bitwise_bits by exact K;
    (first [replace (k <? 32) with true by lia | replace (k <? 32) with false by lia]);
    unfold fF, fG, fH, fI; rewrite ?Z.lor_spec, ?Z.land_spec, ?Z.lxor_spec, ?Z.lor_spec;
    rewrite ?not32_bit by (auto; lia); rewrite ?(w32_high x), ?(w32_high y), ?(w32_high z) by auto;
    rewrite ?(w32_high (not32 x)), ?(w32_high (not32 z)) by (auto using w32_not).
  all: try (destruct (Z.testbit x k), (Z.testbit y k), (Z.testbit z k); reflexivity); try reflexivity.
Qed.
Lemma rotate_is x s : w32 x -> 0 < s < 32 -> rotate_left x s = rotl x s.
Proof.
  intros X S. unfold rotate_left, rotl. rewrite Z.shiftl_mul_pow2, Z.shiftr_div_pow2 by lia. unfold u32.
  assert (P : two32 = 2 ^ (32 - s) * 2 ^ s) by (rewrite <- Z.pow_add_r by lia; replace (32 - s + s) with 32 by lia; reflexivity).
  assert (P1 : 0 < 2 ^ s) by (apply Z.pow_pos_nonneg; lia). assert (P2 : 0 < 2 ^ (32 - s)) by (apply Z.pow_pos_nonneg; lia).
  rewrite P. rewrite Z.mul_mod_distr_r by lia. rewrite Z.lor_comm. rewrite lor_add; [lia|lia|].
  destruct X as [X1 X2]. split; [apply Z.div_pos; lia|]. apply Z.div_lt_upper_bound; [lia|]. rewrite <- P. exact X2.
Qed.
Lemma rotl_w32 x s : w32 x -> 0 < s < 32 -> w32 (rotl x s).
Proof.
  intros X S. rewrite <- rotate_is by auto. apply w32_bits.
  - unfold rotate_left. apply Z.lor_nonneg. split; [apply w32_u32|]. apply Z.shiftr_nonneg, X.
  - intros k K. unfold rotate_left. rewrite Z.lor_spec, (w32_high (u32 _)) by (auto using w32_u32).
    rewrite Z.shiftr_spec by lia. apply w32_high; [exact X|lia].
Qed.

Definition quad_ok (q : quad) : Prop := let '(a, b, c, d) := q in w32 a /\ w32 b /\ w32 c /\ w32 d.
Lemma step_is i a b c d x s ac : w32 a -> w32 b -> w32 c -> w32 d -> w32 x -> 0 < s < 32 ->
  step_value (kind_at i) a b c d x s ac = (b + rotl ((a + round_function i b c d + x + ac) mod two32) s) mod two32.
Proof.
  intros A B C D X S. unfold step_value. rewrite mix_is by auto. rewrite rotate_is by (auto using w32_u32). unfold u32.
  assert (E : (a + ((round_function i b c d + x) mod two32 + ac) mod two32) mod two32 = (a + round_function i b c d + x + ac) mod two32).
  { rewrite Z.add_mod_idemp_l by discriminate. rewrite Z.add_mod_idemp_r by discriminate. f_equal. lia. }
  rewrite E. f_equal. lia.
Qed.

(* The table is the published schedule. *)
Definition order_at (i : Z) : order := nth (Z.to_nat (i mod 4)) [Rabcd; Rdabc; Rcdab; Rbcda] Rabcd.
Definition row_at (i : Z) : row := (kind_at i, order_at i, word_index i, shift_amount i, nth (Z.to_nat i) T 0).
Lemma rows_schedule : rows = map row_at (map Z.of_nat (seq 0 64)).
Proof. vm_compute. reflexivity. Qed.
Lemma shift_ok i : 0 <= i < 64 -> 0 < shift_amount i < 32.
Proof.
  intros I. assert (F : Forall (fun i => 0 < shift_amount i < 32) (map Z.of_nat (seq 0 64))).
  { apply Forall_forall. intros x X. assert (B : forallb (fun i => (0 <? shift_amount i) && (shift_amount i <? 32))%bool (map Z.of_nat (seq 0 64)) = true)
      by (vm_compute; reflexivity). rewrite forallb_forall in B. specialize (B x X). lia. }
  rewrite Forall_forall in F. apply F. apply in_map_iff. exists (Z.to_nat i). split; [lia|]. apply in_seq. lia.
Qed.

Definition turn (n : Z) (q : quad) : words :=
  let '(a, b, c, d) := q in
  if n mod 4 =? 0 then (a, b, c, d) else if n mod 4 =? 1 then (b, c, d, a) else if n mod 4 =? 2 then (c, d, a, b) else (d, a, b, c).

Lemma exec_is x q n : (forall j, w32 (nth j x 0)) -> quad_ok q -> 0 <= n < 64 ->
  exec_row x (turn n q) (row_at n) = turn (n + 1) (operation x q n) /\ quad_ok (operation x q n).
Proof.
  intros XO Q N. destruct q as [[[a b] c] d]. destruct Q as (A & B & C & D). pose proof (shift_ok n N) as S. split.
  - unfold row_at, operation, exec_row, turn, order_at.
    assert (n mod 4 = 0 \/ n mod 4 = 1 \/ n mod 4 = 2 \/ n mod 4 = 3) as [E | [E | [E | E]]] by lia;
      rewrite E; [replace ((n + 1) mod 4) with 1 by lia|replace ((n + 1) mod 4) with 2 by lia|
                  replace ((n + 1) mod 4) with 3 by lia|replace ((n + 1) mod 4) with 0 by lia];
      [change (Z.to_nat 0) with 0%nat|change (Z.to_nat 1) with 1%nat|change (Z.to_nat 2) with 2%nat|change (Z.to_nat 3) with 3%nat];
      cbn [nth Z.eqb Pos.eqb]; rewrite step_is by auto; reflexivity.
  - unfold operation, quad_ok. split; [exact D|]. split; [|split; assumption]. apply Z.mod_pos_bound. reflexivity.
Qed.
Lemma rounds_are x q : (forall j, w32 (nth j x 0)) -> quad_ok q -> forall n, (n <= 64)%nat ->
  fold_left (exec_row x) (map row_at (map Z.of_nat (seq 0 n))) q = turn (Z.of_nat n) (fold_left (operation x) (map Z.of_nat (seq 0 n)) q) /\
  quad_ok (fold_left (operation x) (map Z.of_nat (seq 0 n)) q).
Proof.
  intros XO Q. induction n as [|n IH]; intros N; [split; [destruct q as [[[a b] c] d]; reflexivity|exact Q]|].
  destruct IH as [IH1 IH2]; [lia|]. rewrite seq_S, !map_app, !fold_left_app. cbn [map fold_left Nat.add]. rewrite IH1.
  destruct (exec_is x _ (Z.of_nat n) XO IH2 ltac:(lia)) as [E1 E2]. rewrite E1. split; [f_equal; lia|exact E2].
Qed.

Lemma decode_is : forall n bytes, (length bytes < n)%nat -> Forall is_byte bytes ->
  decode bytes = le_words bytes /\ Forall w32 (le_words bytes).
Proof.
  induction n as [|n IH]; intros bytes N F; [lia|].
  destruct bytes as [|b0 [|b1 [|b2 [|b3 r]]]]; try (split; [reflexivity|constructor]).
  inversion F as [|? ? B0 F0]; subst. inversion F0 as [|? ? B1 F1]; subst. inversion F1 as [|? ? B2 F2]; subst.
  inversion F2 as [|? ? B3 F3]; subst. destruct (IH r ltac:(cbn in N; lia) F3) as [E1 E2].
  cbn [decode le_words]. rewrite E1. unfold is_byte in *.
  rewrite !Z.shiftl_mul_pow2 by lia. unfold u32.
  rewrite (Z.mod_small (b1 * 2 ^ 8)) by (unfold two32; change (2 ^ 8) with 256; lia).
  rewrite (Z.mod_small (b2 * 2 ^ 16)) by (unfold two32; change (2 ^ 16) with 65536; lia).
  rewrite (Z.mod_small (b3 * 2 ^ 24)) by (unfold two32; change (2 ^ 24) with 16777216; lia).
  rewrite (lor_add b0 b1 8) by (try lia; change (2 ^ 8) with 256; lia).
  rewrite (lor_add (b0 + b1 * 2 ^ 8) b2 16) by (try lia; change (2 ^ 8) with 256; change (2 ^ 16) with 65536; lia).
  rewrite (lor_add (b0 + b1 * 2 ^ 8 + b2 * 2 ^ 16) b3 24)
    by (try lia; change (2 ^ 8) with 256; change (2 ^ 16) with 65536; change (2 ^ 24) with 16777216; lia).
  change (2 ^ 8) with 256. change (2 ^ 16) with 65536. change (2 ^ 24) with 16777216. split; [f_equal; lia|].
  constructor; [unfold w32, two32; lia|exact E2].
Qed.
Lemma nth_w32 l : Forall w32 l -> forall j, w32 (nth j l 0).
Proof.
  intros F j. destruct (Nat.lt_ge_cases j (length l)) as [L|L].
  - eapply Forall_forall; [exact F|]. now apply nth_In.
  - rewrite nth_overflow by exact L. unfold w32, two32. lia.
Qed.
Lemma transform_is q block : quad_ok q -> Forall is_byte block -> transform q block = compress q block /\ quad_ok (compress q block).
Proof.
  intros Q F. destruct (decode_is (S (length block)) block (Nat.lt_succ_diag_r _) F) as [E1 E2].
  pose proof (nth_w32 _ E2) as XO. destruct (rounds_are (le_words block) q XO Q 64 (le_n _)) as [R1 R2].
  unfold transform, compress. rewrite E1, rows_schedule, R1. change (turn (Z.of_nat 64)) with (turn 64).
  destruct (fold_left (operation (le_words block)) (map Z.of_nat (seq 0 64)) q) as [[[a b] c] d].
  destruct q as [[[a0 b0] c0] d0]. cbn [turn]. change (64 mod 4 =? 0) with true. cbn iota. split; [reflexivity|].
  cbn [add_quad quad_ok]. repeat split; apply Z.mod_pos_bound; reflexivity.
Qed.

(* Block by block. *)
Lemma blocks_app a b m x : length m = (64 * a)%nat -> blocks (a + b) (m ++ x) = blocks a m ++ blocks b x.
Proof.
  revert m. induction a as [|a IH]; intros m L.
  - destruct m; [reflexivity|cbn in L; lia].
  - cbn [Nat.add blocks app]. rewrite firstn_app, (skipn_app 64). replace (64 - length m)%nat with 0%nat by lia.
    rewrite firstn_O, app_nil_r. change (skipn 0 x) with x. rewrite IH by (rewrite skipn_length; lia). reflexivity.
Qed.
Lemma process_app q m x : (length m mod 64 = 0)%nat -> process q (m ++ x) = process (process q m) x.
Proof.
  intros L. unfold process. assert (E : length m = (64 * (length m / 64))%nat) by (apply Nat.div_exact; lia).
  rewrite app_length. rewrite E at 1. replace ((64 * (length m / 64) + length x) / 64)%nat with (length m / 64 + length x / 64)%nat
    by (rewrite (Nat.mul_comm 64), Nat.div_add_l by lia; reflexivity).
  rewrite blocks_app by exact E. apply fold_left_app.
Qed.
Lemma process_one q m : length m = 64%nat -> process q m = compress q m.
Proof. intros L. unfold process. rewrite L. change (64 / 64)%nat with 1%nat. cbn [blocks fold_left]. rewrite firstn_all2 by lia. reflexivity. Qed.
Lemma process_short q m : (length m < 64)%nat -> process q m = q.
Proof. intros L. unfold process. rewrite Nat.div_small by exact L. reflexivity. Qed.

Record fed (m : md5) (msg : list Z) : Prop := {
  fd_state : state m = process start_value msg;
  fd_quad : quad_ok (state m);
  fd_len : length (buffer m) = 64%nat;
  fd_bytes : Forall is_byte (buffer m);
  fd_tail : firstn (length msg mod 64) (buffer m) = skipn (64 * (length msg / 64)) msg;
  fd_c0 : count0 m = (8 * Z.of_nat (length msg)) mod two32;
  fd_c1 : count1 m = (8 * Z.of_nat (length msg) / two32) mod two32;
  fd_fin : finalized m = false
}.

Lemma fed_init junk : length junk = 64%nat -> Forall is_byte junk -> fed (init junk) [].
Proof. intros L F. constructor; try reflexivity; auto. cbn. unfold w32, two32. lia. Qed.

Lemma index_is n : 0 <= n -> Z.land (Z.shiftr ((8 * n) mod two32) 3) 63 = n mod 64.
Proof.
  intros N. change 63 with (Z.ones 6). rewrite Z.land_ones, Z.shiftr_div_pow2 by lia.
  change (2 ^ 3) with 8. change (2 ^ 6) with 64. unfold two32. lia.
Qed.

Lemma Forall_firstn {A} (P : A -> Prop) n l : Forall P l -> Forall P (firstn n l).
Proof. intros F. rewrite <- (firstn_skipn n l) in F. apply Forall_app in F. apply F. Qed.
Lemma Forall_skipn {A} (P : A -> Prop) n l : Forall P l -> Forall P (skipn n l).
Proof. intros F. rewrite <- (firstn_skipn n l) in F. apply Forall_app in F. apply F. Qed.

Lemma skipn_skipn {A} a b (l : list A) : skipn a (skipn b l) = skipn (a + b) l.
Proof.
  revert l. induction b as [|b IH]; intros l; [rewrite Nat.add_0_r; reflexivity|].
  rewrite Nat.add_succ_r. destruct l as [|x l]; [now rewrite !skipn_nil|]. apply IH.
Qed.

(* The whole 64-byte pieces of the input. *)
Lemma bulk_ok input : Forall is_byte input -> Z.of_nat (length input) < two32 ->
  forall fuel st (ii : nat), quad_ok st -> (ii <= length input)%nat -> (length input < fuel + ii)%nat ->
  (forall k, Z.of_nat (ii + 64 * k) <= Z.of_nat (length input) -> Z.of_nat (ii + 64 * k) + 63 < two32) ->
  let q := ((length input - ii) / 64)%nat in
  bulk fuel st input (Z.of_nat (length input)) (Z.of_nat ii) =
    Some (process st (skipn ii input), Z.of_nat (ii + 64 * q)) /\ quad_ok (process st (skipn ii input)).
Proof.
  intros F LT. induction fuel as [|n IH]; intros st ii Q IL FU NW; [lia|].
  assert (NOWRAP : u32 (Z.of_nat ii + 63) = Z.of_nat ii + 63).
  { apply Z.mod_small. specialize (NW 0%nat). lia. }
  cbn [bulk]. rewrite NOWRAP. destruct (Z.ltb_spec (Z.of_nat ii + 63) (Z.of_nat (length input))) as [L|L].
  - replace (Z.of_nat ii + 64 <=? Z.of_nat (length input)) with true by lia. rewrite Nat2Z.id.
    assert (FB : Forall is_byte (firstn 64 (skipn ii input))) by now apply Forall_firstn, Forall_skipn.
    destruct (transform_is st _ Q FB) as [TE TQ]. rewrite TE.
    assert (U : u32 (Z.of_nat ii + 64) = Z.of_nat (ii + 64)).
    { unfold u32. rewrite Z.mod_small; [lia|]. lia. }
    rewrite U. destruct (IH (compress st (firstn 64 (skipn ii input))) (ii + 64)%nat TQ ltac:(lia) ltac:(lia)) as [IH1 IH2].
    { intros k K. specialize (NW (S k)). lia. }
    assert (SP : process st (skipn ii input) = process (compress st (firstn 64 (skipn ii input))) (skipn (ii + 64) input)).
    { rewrite <- (firstn_skipn 64 (skipn ii input)) at 1. rewrite skipn_skipn.
      assert (L64 : length (firstn 64 (skipn ii input)) = 64%nat) by (rewrite firstn_length, skipn_length; lia).
      rewrite process_app by (rewrite L64; reflexivity). rewrite (process_one st _ L64). rewrite (Nat.add_comm 64 ii). reflexivity. }
    rewrite SP. split; [|exact IH2]. rewrite IH1. f_equal. f_equal. f_equal.
    assert ((length input - ii) / 64 = S ((length input - (ii + 64)) / 64))%nat as ->; [|lia].
    replace (length input - ii)%nat with (1 * 64 + (length input - (ii + 64)))%nat by lia. rewrite Nat.div_add_l by lia. reflexivity.
  - assert (SH : (length input - ii < 64)%nat) by lia. rewrite Nat.div_small by exact SH.
    rewrite process_short by (rewrite skipn_length; exact SH). split; [|exact Q]. f_equal. f_equal. lia.
Qed.

Lemma counts c0 c1 L n : 0 <= L -> 0 <= n < two32 -> c0 = (8 * L) mod two32 -> c1 = (8 * L / two32) mod two32 ->
  let bits := u32 (Z.shiftl n 3) in
  let c0' := u32 (c0 + bits) in
  let c1' := u32 ((if c0' <? bits then u32 (c1 + 1) else c1) + Z.shiftr n 29) in
  c0' = (8 * (L + n)) mod two32 /\ c1' = (8 * (L + n) / two32) mod two32.
Proof.
  intros L0 N E0 E1. cbn zeta. rewrite Z.shiftl_mul_pow2, Z.shiftr_div_pow2 by lia. change (2 ^ 3) with 8.
  assert (H29 : n / 2 ^ 29 = n * 8 / two32) by (change (2 ^ 29) with 536870912; unfold two32; lia). rewrite H29.
  unfold u32. subst c0 c1. set (a := 8 * L). set (b := n * 8). replace (8 * (L + n)) with (a + b) by lia.
  assert (A : 0 <= a) by lia. assert (B : 0 <= b) by lia. clearbody a b. clear - A B.
  pose proof (Z.mod_pos_bound a two32 eq_refl) as MA. pose proof (Z.mod_pos_bound b two32 eq_refl) as MB.
  assert (S0 : (a mod two32 + b mod two32) mod two32 = (a + b) mod two32) by (rewrite <- Z.add_mod by discriminate; reflexivity).
  split; [exact S0|]. rewrite S0.
  assert (DV : (a + b) / two32 = a / two32 + b / two32 + (if (a + b) mod two32 <? b mod two32 then 1 else 0)).
  { destruct (Z.ltb_spec ((a + b) mod two32) (b mod two32)); unfold two32 in *; lia. }
  rewrite DV. destruct ((a + b) mod two32 <? b mod two32).
  - rewrite Z.add_mod_idemp_l by discriminate. rewrite <- Z.add_assoc. rewrite Z.add_mod_idemp_l by discriminate. f_equal. lia.
  - rewrite Z.add_mod_idemp_l by discriminate. f_equal. lia.
Qed.

Lemma firstn_into buf at_ input n : (at_ + n <= length buf)%nat -> (n <= length input)%nat ->
  into_buffer buf (Z.of_nat at_) input (Z.of_nat n) = Some (firstn at_ buf ++ firstn n input ++ skipn (at_ + n) buf).
Proof.
  intros A N. unfold into_buffer. replace ((Z.of_nat at_ + Z.of_nat n <=? Z.of_nat (length buf)) && (Z.of_nat n <=? Z.of_nat (length input)))%bool with true by lia.
  rewrite !Nat2Z.id. replace (Z.to_nat (Z.of_nat at_ + Z.of_nat n)) with (at_ + n)%nat by lia. reflexivity.
Qed.

Ltac Zify.zify_post_hook ::= idtac.
Lemma update_ok m msg input : fed m msg -> Forall is_byte msg -> chunk_ok msg input ->
  exists m', update m input = Some m' /\ fed m' (msg ++ input).
Proof.
  intros [HS HQ HL HB HT H0 H1 HF] FM (FI & LI & WR). unfold update. rewrite HF.
  set (r := (length msg mod 64)%nat) in *. set (b := (length msg / 64)%nat) in *.
  assert (DM : length msg = (64 * b + r)%nat) by (apply Nat.div_mod; lia).
  assert (RB : (r < 64)%nat) by (apply Nat.mod_upper_bound; lia).
  rewrite H0, index_is by lia. replace (Z.of_nat (length msg) mod 64) with (Z.of_nat r) by (unfold r; rewrite Nat2Z.inj_mod; reflexivity).
  rewrite <- H0. destruct (counts (count0 m) (count1 m) (Z.of_nat (length msg)) (Z.of_nat (length input)) ltac:(lia) ltac:(lia) H0 H1) as [C0 C1].
  cbn zeta in C0, C1.
  assert (TL : length (skipn (64 * b) msg) = r) by (rewrite skipn_length; lia).
  assert (SMALL : forall c0 c1, c0 = (8 * Z.of_nat (length (msg ++ input))) mod two32 -> c1 = (8 * Z.of_nat (length (msg ++ input)) / two32) mod two32 ->
     forall st buf (bi ii : nat), quad_ok st -> st = process start_value (msg ++ input) -> length buf = 64%nat -> Forall is_byte buf ->
       (ii <= length input)%nat -> (bi + (length input - ii) < 64)%nat -> (bi <= length msg + ii)%nat -> ((64 * ((length msg + length input) / 64)) = length msg + length input - (bi + (length input - ii)))%nat ->
       firstn bi buf ++ skipn ii input = skipn (length msg + length input - (bi + (length input - ii))) (msg ++ input) ->
     exists m', match into_buffer buf (Z.of_nat bi) (skipn (Z.to_nat (Z.of_nat ii)) input) (u32 (Z.of_nat (length input) - Z.of_nat ii)) with
        | None => None
        | Some buf => Some {| state := st; count0 := c0; count1 := c1; buffer := buf; digest := digest m; finalized := false |} end = Some m' /\ fed m' (msg ++ input)).
  { intros c0 c1 E0 E1 st buf bi ii QS ES LB FB II SH BI DV TA.
    assert (U : u32 (Z.of_nat (length input) - Z.of_nat ii) = Z.of_nat (length input - ii)).
    { unfold u32. rewrite Z.mod_small; lia. }
    rewrite U, Nat2Z.id. rewrite firstn_into by (rewrite ?skipn_length; lia).
    eexists. split; [reflexivity|]. constructor; cbn [state count0 count1 buffer digest finalized]; auto.
    - rewrite !app_length, !firstn_length, !skipn_length. lia.
    - repeat (apply Forall_app; split); auto using Forall_firstn, Forall_skipn.
    - rewrite app_length. rewrite DV. rewrite (firstn_all2 (skipn ii input)) by (rewrite skipn_length; lia).
      assert (RM : ((length msg + length input) mod 64 = bi + (length input - ii))%nat).
      { pose proof (Nat.div_mod (length msg + length input) 64 ltac:(lia)). lia. }
      rewrite RM, <- TA. rewrite app_assoc. rewrite firstn_app.
      assert (LF : length (firstn bi buf ++ skipn ii input) = (bi + (length input - ii))%nat) by (rewrite app_length, firstn_length, skipn_length; lia).
      rewrite LF, Nat.sub_diag, firstn_O, app_nil_r. apply firstn_all2. lia. }
  replace (64 - Z.of_nat r) with (Z.of_nat (64 - r)) by lia.
  assert (LA : length (msg ++ input) = (length msg + length input)%nat) by apply app_length.
  destruct (Z.geb_spec (Z.of_nat (length input)) (Z.of_nat (64 - r))) as [GE|LT].
  - rewrite firstn_into by lia. replace (r + (64 - r))%nat with 64%nat by lia. rewrite (skipn_all2 (buffer m)) by lia. rewrite app_nil_r.
    rewrite HT. set (buf := skipn (64 * b) msg ++ firstn (64 - r) input).
    assert (LB : length buf = 64%nat) by (unfold buf; rewrite app_length, TL, firstn_length; lia).
    assert (FB : Forall is_byte buf) by (apply Forall_app; split; [now apply Forall_skipn|now apply Forall_firstn]).
    destruct (transform_is (state m) buf HQ FB) as [TE TQ]. rewrite TE.
    assert (PM : compress (state m) buf = process start_value (msg ++ firstn (64 - r) input)).
    { rewrite HS. rewrite <- (firstn_skipn (64 * b) msg) at 2. rewrite <- app_assoc. fold buf.
      assert (LFN : length (firstn (64 * b) msg) = (64 * b)%nat) by (rewrite firstn_length; lia).
      rewrite process_app by (rewrite LFN, Nat.mul_comm; apply Nat.mod_mul; lia). rewrite (process_one _ buf LB). f_equal.
      rewrite <- (firstn_skipn (64 * b) msg) at 1. rewrite process_app by (rewrite LFN, Nat.mul_comm; apply Nat.mod_mul; lia).
      apply process_short. lia. }
    destruct (bulk_ok input FI LI (S (length input)) (compress (state m) buf) (64 - r)%nat TQ ltac:(lia) ltac:(lia)) as [BK BQ].
    { intros k K. destruct WR as [WR|WR]; [lia|]. fold r in WR. unfold two32 in *. lia. }
    rewrite BK. set (q := ((length input - (64 - r)) / 64)%nat) in *.
    assert (QE : (length input - (64 - r) = 64 * q + (length input - (64 - r)) mod 64)%nat) by (apply Nat.div_mod; lia).
    pose proof (Nat.mod_upper_bound (length input - (64 - r)) 64 ltac:(lia)) as QM.
    change 0 with (Z.of_nat 0).
    apply SMALL; auto.
    + rewrite C0. f_equal. lia.
    + rewrite C1. f_equal. f_equal. lia.
    + rewrite PM. rewrite <- process_app.
      * rewrite <- app_assoc, firstn_skipn. reflexivity.
      * rewrite app_length, firstn_length. replace (length msg + Nat.min (64 - r) (length input))%nat with ((b + 1) * 64)%nat by lia. apply Nat.mod_mul. lia.
    + lia.
    + lia.
    + lia.
    + assert (E : (length msg + length input = (b + 1 + q) * 64 + (length input - (64 - r)) mod 64)%nat) by lia.
      rewrite E at 1. rewrite Nat.div_add_l by lia. rewrite (Nat.div_small ((length input - (64 - r)) mod 64)) by exact QM. lia.
    + cbn [firstn app]. rewrite skipn_app. rewrite (skipn_all2 msg) by lia. cbn [app]. f_equal. lia.
  - change 0 with (Z.of_nat 0). apply SMALL; auto.
    + rewrite C0. f_equal. lia.
    + rewrite C1. f_equal. f_equal. lia.
    + rewrite HS. rewrite <- (firstn_skipn (64 * b) msg). rewrite <- app_assoc.
      assert (LFN : length (firstn (64 * b) msg) = (64 * b)%nat) by (rewrite firstn_length; lia).
      rewrite !(process_app _ (firstn (64 * b) msg)) by (rewrite LFN, Nat.mul_comm; apply Nat.mod_mul; lia).
      rewrite (process_short _ (skipn (64 * b) msg)) by lia. symmetry. apply process_short. rewrite app_length, TL. lia.
    + lia.
    + lia.
    + lia.
    + replace (length msg + length input)%nat with (b * 64 + (r + length input))%nat by lia. rewrite Nat.div_add_l by lia.
      rewrite Nat.div_small by lia. lia.
    + rewrite HT. cbn [skipn]. replace (length msg + length input - (r + (length input - 0)))%nat with (64 * b)%nat by lia.
      rewrite skipn_app. replace (64 * b - length msg)%nat with 0%nat by lia. reflexivity.
Qed.

Ltac Zify.zify_post_hook ::= Z.div_mod_to_equations.

(* Feeding pieces. *)
Lemma feed_ok chunks : forall m msg, fed m msg -> Forall is_byte msg -> chunks_ok msg chunks ->
  exists m', feed m chunks = Some m' /\ fed m' (msg ++ concat chunks) /\ Forall is_byte (msg ++ concat chunks).
Proof.
  induction chunks as [|c cs IH]; intros m msg H F OK; cbn [feed concat].
  - exists m. rewrite app_nil_r. auto.
  - destruct OK as [O1 O2]. destruct (update_ok m msg c H F O1) as (m1 & U & H1). rewrite U.
    destruct (IH m1 (msg ++ c) H1) as (m' & E & H' & F'); [apply Forall_app; split; [exact F|apply O1]|exact O2|].
    exists m'. rewrite app_assoc. auto.
Qed.

Lemma encode_word_is v : w32 v -> encode_word v = le_bytes 4 v.
Proof.
  intros V. unfold encode_word, le_bytes. cbn [seq map]. change 255 with (Z.ones 8).
  rewrite !Z.land_ones, !Z.shiftr_div_pow2 by lia. unfold byte_of. change (Z.of_nat 0) with 0. change (Z.of_nat 1) with 1.
  change (Z.of_nat 2) with 2. change (Z.of_nat 3) with 3. change (2 ^ (8 * 0)) with 1. rewrite Z.div_1_r. reflexivity.
Qed.
Lemma byte_low k v : 0 <= k < 4 -> byte_of k (v mod two32) = byte_of k v.
Proof.
  intros K. assert (k = 0 \/ k = 1 \/ k = 2 \/ k = 3) as [-> | [-> | [-> | ->]]] by lia;
    rewrite ?byte_of_0, ?byte_of_1, ?byte_of_2, ?byte_of_3; unfold two32; lia.
Qed.
Lemma byte_high k v : 0 <= k < 4 -> byte_of k (v / two32) = byte_of (4 + k) v.
Proof.
  intros K. unfold byte_of. assert (P : 0 < 2 ^ (8 * k)) by (apply Z.pow_pos_nonneg; lia). rewrite Z.div_div; [|discriminate|exact P].
  change two32 with (2 ^ 32). rewrite <- Z.pow_add_r by lia. do 3 f_equal. lia.
Qed.
Lemma le8_split v : le_bytes 8 v = le_bytes 4 (v mod two32) ++ le_bytes 4 ((v / two32) mod two32).
Proof.
  unfold le_bytes. cbn [seq map app].
  change (Z.of_nat 0) with 0. change (Z.of_nat 1) with 1. change (Z.of_nat 2) with 2. change (Z.of_nat 3) with 3.
  rewrite !byte_low, !byte_high by lia. reflexivity.
Qed.
Lemma le_bytes_byte n v : Forall is_byte (le_bytes n v).
Proof. unfold le_bytes. apply Forall_forall. intros x X. apply in_map_iff in X as (k & <- & _). apply byte_of_range. Qed.

Lemma finalize_ok m msg : fed m msg -> Forall is_byte msg ->
  exists m', finalize m = Some m' /\ digest m' = MD5 msg.
Proof.
  intros H FM. pose proof H as [HS HQ HL HB HT H0 H1 HF]. unfold finalize. rewrite HF.
  set (len := Z.of_nat (length msg)) in *.
  assert (BITS : encode [count0 m; count1 m] = le_bytes 8 (8 * len)).
  { unfold encode. cbn [flat_map]. rewrite app_nil_r. rewrite le8_split, <- H0, <- H1.
    rewrite !encode_word_is by (rewrite ?H0, ?H1; apply Z.mod_pos_bound; reflexivity). reflexivity. }
  rewrite BITS. rewrite H0, index_is by lia.
  set (padLen := if len mod 64 <? 56 then 56 - len mod 64 else 120 - len mod 64).
  assert (PL : padLen = 1 + (55 - len) mod 64) by (unfold padLen; destruct (Z.ltb_spec (len mod 64) 56); lia).
  assert (PR : 0 <= (55 - len) mod 64 < 64) by (apply Z.mod_pos_bound; lia).
  assert (FP : firstn (Z.to_nat padLen) PADDING = [128] ++ repeat 0 (Z.to_nat ((55 - len) mod 64))).
  { rewrite PL. replace (Z.to_nat (1 + (55 - len) mod 64)) with (S (Z.to_nat ((55 - len) mod 64))) by lia. unfold PADDING. cbn [firstn app].
    f_equal. assert (G : forall j k, (j <= k)%nat -> firstn j (repeat 0 k) = repeat 0 j).
    { induction j as [|j IH]; intros k K; [reflexivity|]. destruct k; [lia|]. cbn. f_equal. apply IH. lia. }
    apply G. lia. }
  rewrite FP. set (pad := [128] ++ repeat 0 (Z.to_nat ((55 - len) mod 64))).
  assert (LP : length pad = S (Z.to_nat ((55 - len) mod 64))) by (unfold pad; rewrite app_length, repeat_length; reflexivity).
  assert (BP : Forall is_byte pad).
  { apply Forall_app. split; [constructor; [unfold is_byte; lia|constructor]|]. apply Forall_forall. intros x X.
    apply repeat_spec in X. subst. unfold is_byte. lia. }
  destruct (update_ok m msg pad H FM) as (m1 & U1 & F1).
  { split; [exact BP|]. rewrite LP. unfold two32. split; [lia|left; lia]. }
  rewrite U1. destruct (update_ok m1 (msg ++ pad) (le_bytes 8 (8 * len)) F1) as (m2 & U2 & F2).
  { apply Forall_app. auto. }
  { split; [apply le_bytes_byte|]. unfold le_bytes. rewrite map_length, seq_length. unfold two32. split; [lia|left; lia]. }
  rewrite U2. destruct F2 as [S2 Q2 _ _ _ _ _ _].
  unfold MD5, padded. fold len. destruct (state m2) as [[[a b] c] d] eqn:ES. eexists. split; [reflexivity|]. cbn [digest].
  assert (E : process start_value (msg ++ [128] ++ repeat 0 (Z.to_nat ((55 - len) mod 64)) ++ le_bytes 8 (8 * len)) = (a, b, c, d)).
  { rewrite S2. unfold pad. now rewrite <- !app_assoc. }
  rewrite E. unfold encode. cbn [flat_map]. destruct Q2 as (QA & QB & QC & QD). now rewrite !encode_word_is by assumption.
Qed.

Lemma hash_chunks junk chunks : length junk = 64%nat -> Forall is_byte junk -> chunks_ok [] chunks ->
  exists m m', feed (init junk) chunks = Some m /\ finalize m = Some m' /\ digest m' = MD5 (concat chunks).
Proof.
  intros L F OK. destruct (feed_ok chunks (init junk) [] (fed_init junk L F) (Forall_nil _) OK) as (m & E & H & FB).
  destruct (finalize_ok m (concat chunks) H FB) as (m' & E' & D). exists m, m'. auto.
Qed.
Lemma padded_blocks msg : (Z.of_nat (length (padded msg)) mod 64 = 0).
Proof.
  unfold padded. rewrite !app_length, repeat_length. cbn [length]. unfold le_bytes. rewrite map_length, seq_length. lia.
Qed.

(* The loop index wraps when a huge piece follows an odd one. *)
Lemma bulk_overrun input : Z.of_nat (length input) = two32 - 1 -> forall fuel st ii,
  0 <= ii <= two32 - 1 -> (two32 - 1 - ii) mod 64 = 0 -> bulk fuel st input (two32 - 1) ii = None.
Proof.
  intros L. induction fuel as [|n IH]; intros st ii R M; cbn [bulk]; rewrite ?L.
  - replace (u32 (ii + 63) <? two32 - 1) with true; [reflexivity|]. unfold u32, two32 in *. lia.
  - replace (u32 (ii + 63) <? two32 - 1) with true by (unfold u32, two32 in *; lia).
    destruct (Z.leb_spec (ii + 64) (two32 - 1)) as [G|G]; [|reflexivity]. apply IH; unfold u32, two32 in *; lia.
Qed.
Lemma huge_update m input : finalized m = false -> count0 m = 8 -> length (buffer m) = 64%nat ->
  Z.of_nat (length input) = two32 - 1 -> update m input = None.
Proof.
  intros F C B L. unfold update. rewrite F, C, L. change (Z.land (Z.shiftr 8 3) 63) with (Z.of_nat 1).
  change (64 - Z.of_nat 1) with (Z.of_nat 63). replace (two32 - 1 >=? Z.of_nat 63) with true by reflexivity.
  rewrite firstn_into; [|lia|unfold two32 in L; lia].
  rewrite bulk_overrun; [reflexivity|exact L|unfold two32; lia|reflexivity].
Qed.
Lemma zeros_length n : 0 <= n -> Z.of_nat (length (repeat 0 (Z.to_nat n))) = n.
Proof. intros N. rewrite repeat_length. apply Z2Nat.id, N. Qed.
Lemma huge_piece junk : length junk = 64%nat -> Forall is_byte junk ->
  exists first second m, Forall is_byte first /\ Forall is_byte second /\
    Z.of_nat (length first) < two32 /\ Z.of_nat (length second) < two32 /\
    update (init junk) first = Some m /\ update m second = None.
Proof.
  intros L F. destruct (update_ok (init junk) [] [0] (fed_init junk L F) (Forall_nil _)) as (m & U & [S Q LB B T0 C0 C1 FN]).
  { split; [constructor; [unfold is_byte; lia|constructor]|]. cbn [length]. unfold two32. split; [lia|left; lia]. }
  assert (P : 0 <= two32 - 1) by (unfold two32; lia). pose proof (zeros_length _ P) as ZL. remember (two32 - 1) as n eqn:EN.
  exists [0], (repeat 0 (Z.to_nat n)), m.
  assert (ZB : Forall is_byte (repeat 0 (Z.to_nat n))).
  { apply Forall_forall. intros x X. apply repeat_spec in X. subst x. unfold is_byte. lia. }
  assert (OB : Forall is_byte [0]) by (constructor; [unfold is_byte; lia|constructor]).
  rewrite ZL. split; [exact OB|]. split; [exact ZB|]. split; [cbn [length]; unfold two32; lia|]. split; [lia|]. split; [exact U|].
  apply huge_update; [exact FN|rewrite C0; reflexivity|exact LB|rewrite ZL; exact EN].
Qed.
Lemma hash_one junk data : length junk = 64%nat -> Forall is_byte junk ->
  Forall is_byte data -> Z.of_nat (length data) < two32 ->
  exists m m', update (init junk) data = Some m /\ finalize m = Some m' /\ digest m' = MD5 data.
Proof.
  intros L F FD LD. destruct (hash_chunks junk [data] L F) as (m & m' & E & E' & D).
  { split; [|exact I]. split; [exact FD|]. split; [exact LD|]. right. reflexivity. }
  exists m, m'. cbn [feed] in E. destruct (update (init junk) data) as [m1|] eqn:U; [|discriminate].
  assert (m1 = m) as -> by congruence. cbn [concat] in D. rewrite app_nil_r in D. auto.
Qed.
