From Verif Require Import Base Base_Proofs Rt_Model Array_Model Interp_Model Rt_Spec Rt_Proofs Hist_Proofs
  Mem_Spec Mem_Proofs Exec_Safe Alu_Spec.
From Coq Require Import ZifyBool.
Ltac Zify.zify_post_hook ::= Z.div_mod_to_equations.

(* ---- Words ---- *)
Lemma word_high w x n : 1 <= w -> in_word w x -> w - 1 <= n -> Z.testbit x n = (x <? 0).
Proof.
  intros Hw Hx Hn. assert (2 ^ (w - 1) <= 2 ^ n) by (apply Z.pow_le_mono_r; lia). unfold in_word in Hx.
  rewrite Z.testbit_eqb by lia. destruct (x <? 0) eqn:E.
  - assert (X : x / 2 ^ n = -1) by (symmetry; apply Z.div_unique with (x + 2 ^ n); [left|]; lia). now rewrite X.
  - assert (X : x / 2 ^ n = 0) by (apply Z.div_small; lia). now rewrite X.
Qed.
Lemma word_of_high w x b : 1 <= w -> (forall n, w - 1 <= n -> Z.testbit x n = b) -> in_word w x.
Proof.
  intros Hw H. assert (E : x / 2 ^ (w - 1) = if b then -1 else 0).
  { apply Z.bits_inj'. intros n Hn. rewrite Z.div_pow2_bits by lia. rewrite H by lia.
    destruct b; [now rewrite Z.bits_m1|now rewrite Z.bits_0]. }
  assert (0 < 2 ^ (w - 1)) by (apply Z.pow_pos_nonneg; lia). unfold in_word.
  pose proof (Z.div_mod x (2 ^ (w - 1))). pose proof (Z.mod_pos_bound x (2 ^ (w - 1))). destruct b; lia.
Qed.
Lemma word_bits (f : Z -> Z -> Z) (g : bool -> bool -> bool) w x y : 1 <= w ->
  (forall x y n, Z.testbit (f x y) n = g (Z.testbit x n) (Z.testbit y n)) ->
  in_word w x -> in_word w y -> bitwise w g x y (f x y).
Proof.
  intros Hw Hf Hx Hy. split; [|intros; apply Hf].
  apply (word_of_high w _ (g (x <? 0) (y <? 0))); auto. intros n Hn. now rewrite Hf, !(word_high w).
Qed.
Lemma word_shiftr w x n : 1 <= w -> in_word w x -> 0 <= n -> in_word w (Z.shiftr x n).
Proof.
  intros Hw H Hn. rewrite Z.shiftr_div_pow2 by lia. assert (1 <= 2 ^ n) by (apply (Z.pow_le_mono_r 2 0 n); lia).
  assert (0 < 2 ^ (w - 1)) by (apply Z.pow_pos_nonneg; lia). unfold in_word in *. split.
  - apply Z.div_le_lower_bound; nia.
  - apply Z.div_lt_upper_bound; nia.
Qed.
Lemma word_quot w x y : 1 <= w -> in_word w x -> y <> 0 -> ~ (y = -1 /\ x = - 2 ^ (w - 1)) -> in_word w (Z.quot x y).
Proof.
  intros Hw Hx H0 H1. assert (P : 0 < 2 ^ (w - 1)) by (apply Z.pow_pos_nonneg; lia). unfold in_word in *.
  assert (A : Z.abs (Z.quot x y) <= Z.abs x).
  { rewrite <- Z.quot_abs by lia. apply Z.quot_le_upper_bound; [lia|]. nia. }
  destruct (Z.eq_dec x (- 2 ^ (w - 1))) as [E|]; [|lia].
  destruct (Z.eq_dec y 1) as [->|]; [rewrite Z.quot_1_r; lia|].
  assert (2 <= Z.abs y) by lia. assert (Z.abs (Z.quot x y) * 2 <= 2 ^ (w - 1)); [|lia].
  rewrite <- Z.quot_abs by lia. replace (Z.abs x) with (2 ^ (w - 1)) by lia.
  assert (Z.abs y * Z.quot (2 ^ (w - 1)) (Z.abs y) <= 2 ^ (w - 1)) by (apply Z.mul_quot_le; lia).
  assert (0 <= Z.quot (2 ^ (w - 1)) (Z.abs y)) by (apply Z.quot_pos; lia). nia.
Qed.
Lemma word_rem w x y : in_word w x -> in_word w y -> y <> 0 -> in_word w (Z.rem x y).
Proof. intros Hx Hy H0. pose proof (Z.rem_bound_abs x y H0). unfold in_word in *. lia. Qed.
Lemma trunc_div x y : y <> 0 -> divides_as x y (Z.quot x y) (Z.rem x y).
Proof.
  intros H. split; [apply Z.quot_rem'|]. split; [now apply Z.rem_bound_abs|]. now apply Z.rem_sign_mul.
Qed.

Lemma in_word32 x : in_word 32 x <-> is_i32 x. Proof. reflexivity. Qed.
Lemma in_word64 x : in_word 64 x <-> is_i64 x. Proof. reflexivity. Qed.
Lemma is_word32 z : is_word 32 (wrap32 z) z.
Proof. split; [apply wrap32_range|]. change (2 ^ 32) with two32. unfold wrap32. unb. lia. Qed.
Lemma is_word64 z : is_word 64 (wrap64 z) z.
Proof. split; [apply wrap64_range|]. change (2 ^ 64) with two64. unfold wrap64. unb. lia. Qed.
Lemma is_word_eq w r z z' : z = z' -> is_word w r z -> is_word w r z'. Proof. now intros ->. Qed.

Lemma i32_land x y : is_i32 x -> is_i32 y -> is_i32 (Z.land x y). Proof. intros. apply (word_bits Z.land andb 32); auto; [lia|apply Z.land_spec]. Qed.
Lemma i32_lor x y : is_i32 x -> is_i32 y -> is_i32 (Z.lor x y). Proof. intros. apply (word_bits Z.lor orb 32); auto; [lia|apply Z.lor_spec]. Qed.
Lemma i32_lxor x y : is_i32 x -> is_i32 y -> is_i32 (Z.lxor x y). Proof. intros. apply (word_bits Z.lxor xorb 32); auto; [lia|apply Z.lxor_spec]. Qed.
Lemma i32_lnot x : is_i32 x -> is_i32 (Z.lnot x). Proof. unfold Z.lnot, is_i32. lia. Qed.

Lemma shr_word x n : is_i32 x -> 0 <= n < 32 -> word_result 32 WShr x n (wrap32 (Z.shiftr (u32 x) n)).
Proof.
  intros Hx Hn. split; [apply wrap32_range|]. change (2 ^ 32) with two32. fold (u32 (wrap32 (Z.shiftr (u32 x) n))). fold (u32 x).
  rewrite u32_wrap32, Z.shiftr_div_pow2 by lia. apply Z.mod_small. pose proof (u32_range x) as R.
  assert (1 <= 2 ^ n) by (apply (Z.pow_le_mono_r 2 0 n); lia). unfold is_u32, two32 in *. split; [apply Z.div_pos; lia|].
  apply Z.div_lt_upper_bound; nia.
Qed.
Lemma sshr_word w x n : 1 <= w -> in_word w x -> 0 <= n -> word_result w WSshr x n (Z.shiftr x n).
Proof.
  intros Hw Hx Hn. split; [now apply word_shiftr|]. rewrite Z.shiftr_div_pow2 by lia.
  assert (0 < 2 ^ n) by (apply Z.pow_pos_nonneg; lia). pose proof (Z.div_mod x (2 ^ n)). pose proof (Z.mod_pos_bound x (2 ^ n)). nia.
Qed.
Lemma shl_word x n : 0 <= n -> word_result 32 WShl x n (wrap32 (Z.shiftl x n)).
Proof. intros Hn. cbn [word_result]. rewrite Z.shiftl_mul_pow2 by lia. apply is_word32. Qed.

Ltac stp := unfold bind, getr, setr, ret; cbn [rts pri alt].
Ltac sar := unfold bind, getr, setr; cbn [rts pri alt]; rewrite sarith_false; unfold ret; cbn [rts pri alt].

Lemma check_div_ok x y st : word_error 32 WDiv x y = None -> check_div x y st = Ok tt st.
Proof.
  unfold word_error, check_div. destruct (y =? 0); [discriminate|]. change (2 ^ (32 - 1)) with two31.
  destruct (_ && _); [discriminate|reflexivity].
Qed.
Lemma check_div_err x y st e : word_error 32 WDiv x y = Some e -> check_div x y st = Fail e st.
Proof.
  unfold word_error, check_div, fail. destruct (y =? 0); [congruence|]. change (2 ^ (32 - 1)) with two31.
  destruct (_ && _); [congruence|discriminate].
Qed.
Lemma div_ok_facts x y : word_error 32 WDiv x y = None -> y <> 0 /\ ~ (y = -1 /\ x = - 2 ^ (32 - 1)).
Proof.
  unfold word_error. destruct (y =? 0) eqn:E; [discriminate|]. destruct (_ && _) eqn:E1; [discriminate|]. intros _. lia.
Qed.

Section Alu.
Variables (fe : fenv) (natives : Z -> option native) (mi : meth).

Lemma alu32 i st o x y d : operation32 i st = Some (o, x, y, d) -> is_i32 (pri st) -> is_i32 (alt st) ->
  is_i32 x -> is_i32 y -> word_error 32 o x y = None -> shift_in_range 32 o y ->
  exists r, exec false fe natives mi i st = Ok tt (put_reg d r st) /\ word_result 32 o x y r.
Proof.
  intros E Hp Ha Hx Hy He Hs. destruct st as [s p a]. cbn [pri alt] in *.
  destruct i; cbn [operation32 pri alt get_reg] in E; try discriminate E; injection E as <- <- <- <-; cbn [exec shift_in_range put_reg rts pri alt] in *.
  - stp. unfold shl32. replace ((0 <=? a) && (a <? 32)) with true by lia. stp. eexists. split; [reflexivity|]. apply shl_word. lia.
  - stp. unfold shr32. replace ((0 <=? a) && (a <? 32)) with true by lia. stp. eexists. split; [reflexivity|]. now apply shr_word.
  - stp. unfold sshr32. replace ((0 <=? a) && (a <? 32)) with true by lia. stp. eexists. split; [reflexivity|]. apply sshr_word; auto; lia.
  - destruct r; stp; unfold shl32; replace ((0 <=? v) && (v <? 32)) with true by lia; stp;
      (eexists; split; [reflexivity|]; apply shl_word; lia).
  - sar. eexists. split; [reflexivity|]. apply is_word32.
  - stp. rewrite check_div_ok by assumption. destruct (div_ok_facts _ _ He). eexists. split; [reflexivity|].
    split; [apply word_quot; auto; lia|]. exists (Z.rem a p). now apply trunc_div.
  - stp. rewrite check_div_ok by assumption. destruct (div_ok_facts _ _ He). eexists. split; [reflexivity|].
    split; [apply word_rem; auto|]. exists (Z.quot a p). now apply trunc_div.
  - sar. eexists. split; [reflexivity|]. apply is_word32.
  - sar. eexists. split; [reflexivity|]. apply is_word32.
  - sar. eexists. split; [reflexivity|]. apply is_word32.
  - stp. eexists. split; [reflexivity|]. apply (word_bits Z.land); auto; [lia|apply Z.land_spec].
  - stp. eexists. split; [reflexivity|]. apply (word_bits Z.lor); auto; [lia|apply Z.lor_spec].
  - stp. eexists. split; [reflexivity|]. apply (word_bits Z.lxor); auto; [lia|apply Z.lxor_spec].
  - sar. eexists. split; [reflexivity|]. apply is_word32.
  - stp. eexists. split; [reflexivity|]. rewrite <- Z.lxor_m1_r. apply (word_bits Z.lxor); auto; [lia|apply Z.lxor_spec].
  - sar. eexists. split; [reflexivity|]. apply is_word32.
  - sar. eexists. split; [reflexivity|]. apply is_word32.
  - destruct r; sar; (eexists; split; [reflexivity|]; apply is_word32).
  - destruct r; sar; (eexists; split; [reflexivity|]; apply is_word32).
Qed.

Lemma alu32_error i st o x y d e : operation32 i st = Some (o, x, y, d) -> word_error 32 o x y = Some e ->
  exec false fe natives mi i st = Fail e st.
Proof.
  intros E He. destruct st as [s p a].
  destruct i; cbn [operation32 pri alt get_reg] in E; try discriminate E; injection E as <- <- <- <-; try discriminate He; cbn [exec];
    stp; now rewrite (check_div_err _ _ _ e).
Qed.

Lemma sdiv_both r st : let x := get_reg r st in let y := get_reg (match r with Pri => Alt | Alt => Pri end) st in
  is_i32 (pri st) -> is_i32 (alt st) ->
  match word_error 32 WDiv x y with
  | Some e => exec false fe natives mi (SDIV r) st = Fail e st
  | None => exists q m, exec false fe natives mi (SDIV r) st = Ok tt (mkIst (rts st) q m) /\
              is_i32 q /\ is_i32 m /\ divides_as x y q m
  end.
Proof.
  intros x y Hp Ha. destruct st as [s p a]. cbn [pri alt] in *.
  assert (Hx : is_i32 x) by (destruct r; assumption). assert (Hy : is_i32 y) by (destruct r; assumption).
  destruct (word_error 32 WDiv x y) as [e|] eqn:E; cbn [exec].
  - unfold x, y in *. destruct r; cbn [get_reg pri alt] in E; stp; now rewrite (check_div_err _ _ _ e).
  - destruct (div_ok_facts _ _ E) as [N1 N2]. exists (Z.quot x y), (Z.rem x y).
    split; [unfold x, y in *; destruct r; cbn [get_reg pri alt] in *; stp; now rewrite check_div_ok|].
    split; [apply (word_quot 32); auto; lia|]. split; [apply (word_rem 32); auto|now apply trunc_div].
Qed.

Lemma compare32 i st P : relation i st = Some P ->
  exists r, exec false fe natives mi i st = Ok tt (put_reg Pri r st) /\ (r = 1 /\ P \/ r = 0 /\ ~ P).
Proof.
  intros E. destruct st as [s p a]. destruct i; try discriminate E; cbn [relation pri alt get_reg] in E; cbn [exec]; stp; unfold b2z, eval_cmp.
  - injection E as <-. eexists. split; [reflexivity|]. destruct (p =? 0) eqn:X; lia.
  - destruct c; injection E as <-; eexists; (split; [reflexivity|]);
      match goal with |- context [if ?b then _ else _] => destruct b eqn:X; lia end.
  - injection E as <-. eexists. split; [reflexivity|]. destruct r; cbn [get_reg pri alt];
      match goal with |- context [if ?b then _ else _] => destruct b eqn:X; lia end.
Qed.

(* ---- 64 bits ---- *)
Lemma value64_load s a v : value64 s a v <-> v = load64 (mem s) a.
Proof.
  clear fe natives mi. unfold value64, load64. pose proof (load32_range (mem s) a) as R0. pose proof (load32_range (mem s) (a + 4)) as R1.
  set (l := load32 (mem s) a) in *. set (h := load32 (mem s) (a + 4)) in *.
  unfold in_word, u32, wrap64, is_i32 in *. change (2 ^ (64 - 1)) with two63. change (2 ^ 64) with two64. change (2 ^ 32) with two32.
  unfold two31, two32, two63, two64 in *. clearbody l h. lia.
Qed.
Lemma readable_block s a : readable64 s a <-> Forall (script_address s) (block a 8).
Proof.
  unfold block, script_address, in_gap, readable64. change (8 =? 0) with false. cbv iota.
  replace (a + 8 - 1) with (a + 7) by lia. split.
  - intros [H1 H2]. repeat (constructor; auto).
  - intros H. inversion H as [|? ? H1 H2]; subst. inversion H2; subst. auto.
Qed.
Lemma acquire64_ok s a : layout s -> readable64 s a -> acquireInt64Addr a s = Ok a s.
Proof.
  intros L H. assert (H0 := H). destruct H0 as [[H0 _] _]. apply readable_block in H. unfold acquireInt64Addr.
  assert (mem_size s + 128 <= two31 /\ data_size s + 16384 <= mem_size s /\ 0 <= data_size s /\ stp s = mem_size s - 4) by (destruct L; lia).
  apply acquire_ok; auto; unfold is_i32, two31, two32 in *; lia.
Qed.
Lemma acquire64_bad s a : is_i32 a -> ~ readable64 s a -> layout s -> acquireInt64Addr a s = Fail INVALID_ADDRESS s.
Proof.
  intros Hi H L. unfold acquireInt64Addr. assert (mem_size s + 128 <= two31 /\ data_size s + 16384 <= mem_size s /\ 0 <= data_size s) by (destruct L; lia).
  apply acquire_bad; auto; try lia. now rewrite <- readable_block.
Qed.
Lemma readable_in s a : layout s -> readable64 s a -> 0 <= a /\ a + 8 <= mem_size s.
Proof. intros [] [[H1 _] [H2 _]]. lia. Qed.
Lemma rd64_ok s a : 0 <= a -> a + 8 <= mem_size s -> rd64 a s = Ok (load64 (mem s) a) s.
Proof. intros. unfold rd64. now rewrite in_mem_true. Qed.
Lemma wr64_ok s a v : 0 <= a -> a + 8 <= mem_size s -> wr64 a v s = Ok tt (set_mem (store64 (mem s) a v) s).
Proof. intros. unfold wr64. now rewrite in_mem_true. Qed.
Lemma slot64_get s o p q : slot64_ok s (slot mi (mkIst s p q) o) -> acquireInt64Slot (so mi o) s = Ok (slot mi (mkIst s p q) o) s.
Proof.
  intros [H _]. unfold acquireInt64Slot. unfold slot in *. cbn [rts] in *. unfold so. rewrite (proj2 (bad_address_spec _ _) H). reflexivity.
Qed.
Lemma stores64_ok s a v : in_word 64 v -> stores64 s (set_mem (store64 (mem s) a v) s) a v.
Proof.
  intros Hv. split; [|split]; wsimp.
  - apply value64_load. wsimp. rewrite load64_store64_same. symmetry. now apply wrap64_id.
  - intros x Hx. apply store64_out. lia.
  - reflexivity.
Qed.

Lemma sarith64_false z st : sarith64 false z st = Ok (wrap64 z) st.
Proof.
  unfold sarith64. destruct (is_i64b z) eqn:E; [|reflexivity]. unfold ret. rewrite wrap64_id; [reflexivity|].
  unfold is_i64b, is_i64 in *. lia.
Qed.
Definition ops64 (o : bin64) (vp va : Z) : Z * Z := if snd (operation64 o) then (va, vp) else (vp, va).
Lemma check64 x y st : check_div64 x y st = match word_error 64 WDiv x y with Some e => Fail e st | None => Ok tt st end.
Proof.
  unfold check_div64, word_error. change (2 ^ (64 - 1)) with two63. destruct (y =? 0); [reflexivity|]. destruct (_ && _); reflexivity.
Qed.
Lemma div64_facts x y : word_error 64 WDiv x y = None -> y <> 0 /\ ~ (y = -1 /\ x = - 2 ^ (64 - 1)).
Proof.
  unfold word_error. destruct (y =? 0) eqn:E; [discriminate|]. destruct (_ && _) eqn:E1; [discriminate|]. intros _. lia.
Qed.
Lemma eval64 o vp va st : in_word 64 vp -> in_word 64 va ->
  let '(x, y) := ops64 o vp va in
  match word_error 64 (fst (operation64 o)) x y with
  | Some e => eval_bin64 false o vp va st = Fail e st
  | None => shift_in_range 64 (fst (operation64 o)) y ->
            exists r, eval_bin64 false o vp va st = Ok r st /\ word_result 64 (fst (operation64 o)) x y r
  end.
Proof.
  intros Hp Ha. destruct o; unfold ops64; cbn [operation64 fst snd eval_bin64 word_error shift_in_range]; try (intros Hs).
  - exists (wrap64 (vp * va)). rewrite sarith64_false. split; [reflexivity|apply is_word64].
  - exists (wrap64 (vp + va)). rewrite sarith64_false. split; [reflexivity|apply is_word64].
  - exists (wrap64 (va - vp)). rewrite sarith64_false. split; [reflexivity|apply is_word64].
  - unfold shift_ok64. replace ((0 <=? va) && (va <? 64)) with true by lia. eexists. split; [reflexivity|].
    cbn [word_result]. rewrite Z.shiftl_mul_pow2 by lia. apply is_word64.
  - unfold shift_ok64. replace ((0 <=? va) && (va <? 64)) with true by lia. eexists. split; [reflexivity|]. apply sshr_word; auto; lia.
  - unfold shift_ok64. replace ((0 <=? va) && (va <? 64)) with true by lia. eexists. split; [reflexivity|].
    split; [apply wrap64_range|]. change (2 ^ 64) with two64. fold (u64 vp).
    rewrite Z.shiftr_div_pow2 by lia. assert (1 <= 2 ^ va) by (apply (Z.pow_le_mono_r 2 0 va); lia).
    assert (0 <= u64 vp < two64) by (unfold u64; unb; lia).
    assert (0 <= u64 vp / 2 ^ va < two64) by (split; [apply Z.div_pos; lia|apply Z.div_lt_upper_bound; nia]).
    set (z := u64 vp / 2 ^ va) in *. clearbody z. unfold wrap64, two63, two64 in *. lia.
  - eexists. split; [reflexivity|]. apply (word_bits Z.lor); auto; [lia|apply Z.lor_spec].
  - eexists. split; [reflexivity|]. apply (word_bits Z.land); auto; [lia|apply Z.land_spec].
  - eexists. split; [reflexivity|]. apply (word_bits Z.lxor); auto; [lia|apply Z.lxor_spec].
  - unfold bind. rewrite check64. fold (word_error 64 WDiv va vp). destruct (word_error 64 WDiv va vp) as [e|] eqn:E; [reflexivity|].
    intros _. destruct (div64_facts _ _ E). eexists. split; [reflexivity|]. split; [apply word_quot; auto; lia|].
    eexists. now apply trunc_div.
  - unfold bind. rewrite check64. fold (word_error 64 WDiv va vp). destruct (word_error 64 WDiv va vp) as [e|] eqn:E; [reflexivity|].
    intros _. destruct (div64_facts _ _ E). eexists. split; [reflexivity|]. split; [apply word_rem; auto|].
    eexists. now apply trunc_div.
Qed.

Ltac lf := unfold bind, lift, getr, setr, ret, get; cbn [rts pri alt].
Lemma bin64_ok o k st vp va : layout (rts st) -> slot64_ok (rts st) (slot mi st k) ->
  readable64 (rts st) (pri st) -> readable64 (rts st) (alt st) ->
  value64 (rts st) (pri st) vp -> value64 (rts st) (alt st) va ->
  let '(x, y) := if snd (operation64 o) then (va, vp) else (vp, va) in
  match word_error 64 (fst (operation64 o)) x y with
  | Some e => exec false fe natives mi (BIN64 o k) st = Fail e st
  | None => shift_in_range 64 (fst (operation64 o)) y ->
     exists r s', exec false fe natives mi (BIN64 o k) st = Ok tt (mkIst s' (slot mi st k) (alt st)) /\
       word_result 64 (fst (operation64 o)) x y r /\ stores64 (rts st) s' (slot mi st k) r
  end.
Proof.
  intros L S Rp Ra Vp Va. destruct st as [s p a]. cbn [rts pri alt] in *.
  assert (Ip : in_word 64 vp) by apply Vp. assert (Ia : in_word 64 va) by apply Va. apply value64_load in Vp. apply value64_load in Va.
  pose proof (readable_in _ _ L Rp). pose proof (readable_in _ _ L Ra).
  assert (S' := S). destruct S' as [[S0 _] S1].
  assert (X : exec false fe natives mi (BIN64 o k) (mkIst s p a) =
     match eval_bin64 false o vp va (mkIst s p a) with
     | Ok w _ => Ok tt (mkIst (set_mem (store64 (mem s) (slot mi (mkIst s p a) k) w) s) (slot mi (mkIst s p a) k) a)
     | Fail e _ => Fail e (mkIst s p a)
     | UB u => UB u
     end).
  { cbn [exec]. lf. rewrite acquire64_ok by assumption. cbn [rts pri alt]. rewrite acquire64_ok by assumption. cbn [rts pri alt].
    rewrite (slot64_get s k p a S). cbn [rts pri alt]. rewrite !rd64_ok by lia. cbn [rts pri alt].
    rewrite rd64_ok by lia. cbn [rts pri alt]. rewrite <- Vp, <- Va.
    pose proof (eval_keeps o vp va (mkIst s p a)) as K. destruct (eval_bin64 false o vp va (mkIst s p a)) as [w st'|e st'|u];
      [subst st'|subst st'; reflexivity|reflexivity]. cbn [rts pri alt]. rewrite wr64_ok by lia. cbn [rts pri alt]. reflexivity. }
  pose proof (eval64 o vp va (mkIst s p a) Ip Ia) as E. unfold ops64 in E.
  destruct (if snd (operation64 o) then (va, vp) else (vp, va)) as [x y]. rewrite X.
  destruct (word_error 64 (fst (operation64 o)) x y) as [e|]; [now rewrite E|]. intros Hs. destruct (E Hs) as (r & E1 & E2).
  rewrite E1. exists r. eexists. split; [reflexivity|]. split; [exact E2|]. apply stores64_ok.
  destruct (fst (operation64 o)); apply E2.
Qed.

Lemma un64_ok o k st v : layout (rts st) -> slot64_ok (rts st) (slot mi st k) -> readable64 (rts st) (pri st) ->
  value64 (rts st) (pri st) v ->
  exists r s', exec false fe natives mi (UN64 o k) st = Ok tt (mkIst s' (slot mi st k) (alt st)) /\
    match o with Neg64 => word_result 64 WSub 0 v r | Inv64 => word_result 64 WXor v (-1) r end /\
    stores64 (rts st) s' (slot mi st k) r.
Proof.
  intros L S Rp Vp. destruct st as [s p a]. cbn [rts pri alt] in *. assert (Ip : in_word 64 v) by apply Vp. apply value64_load in Vp.
  pose proof (readable_in _ _ L Rp). assert (S' := S). destruct S' as [[S0 _] S1].
  set (w := match o with Neg64 => wrap64 (- v) | Inv64 => Z.lnot v end).
  exists w, (set_mem (store64 (mem s) (slot mi (mkIst s p a) k) w) s). unfold w; clear w. split; [|split].
  - cbn [exec]. lf. rewrite acquire64_ok by assumption. cbn [rts pri alt].
    rewrite (slot64_get s k p a S). cbn [rts pri alt]. rewrite rd64_ok by lia. cbn [rts pri alt]. rewrite <- Vp.
    destruct o; [|rewrite sarith64_false]; cbn [rts pri alt]; rewrite wr64_ok by lia; cbn [rts pri alt]; reflexivity.
  - destruct o; [rewrite <- Z.lxor_m1_r; apply (word_bits Z.lxor); auto; try apply Z.lxor_spec; unfold in_word; lia|apply is_word64].
  - apply stores64_ok. destruct o; [|apply wrap64_range]. unfold in_word, Z.lnot in *. lia.
Qed.

Lemma cmp64_ok c st vp va P : layout (rts st) -> readable64 (rts st) (pri st) -> readable64 (rts st) (alt st) ->
  value64 (rts st) (pri st) vp -> value64 (rts st) (alt st) va -> relation64 c vp va = Some P ->
  exists r, exec false fe natives mi (CMP64 c) st = Ok tt (put_reg Pri r st) /\ (r = 1 /\ P \/ r = 0 /\ ~ P).
Proof.
  intros L Rp Ra Vp Va E. destruct st as [s p a]. cbn [rts pri alt] in *. apply value64_load in Vp. apply value64_load in Va.
  pose proof (readable_in _ _ L Rp). pose proof (readable_in _ _ L Ra).
  exists (b2z (eval_cmp c vp va)). split.
  - cbn [exec]. lf. rewrite acquire64_ok by assumption. cbn [rts pri alt]. rewrite acquire64_ok by assumption. cbn [rts pri alt].
    rewrite rd64_ok by lia. cbn [rts pri alt]. rewrite rd64_ok by lia. cbn [rts pri alt]. now rewrite <- Vp, <- Va.
  - unfold b2z, eval_cmp. destruct c; try discriminate E; injection E as <-;
      match goal with |- context [if ?b then _ else _] => destruct b eqn:X; lia end.
Qed.

(* Conversions and moves. *)
Lemma cvt64_ok k st : layout (rts st) -> slot64_ok (rts st) (slot mi st k) -> is_i32 (pri st) ->
  exists s', exec false fe natives mi (CVT_I64 k) st = Ok tt (mkIst s' (slot mi st k) (alt st)) /\
    stores64 (rts st) s' (slot mi st k) (pri st).
Proof.
  intros L S Hp. destruct st as [s p a]. cbn [rts pri alt] in *. assert (S' := S). destruct S' as [[S0 _] S1].
  eexists. split.
  - cbn [exec]. lf. rewrite (slot64_get s k p a S). rewrite wr64_ok by lia. cbn [rts pri alt]. reflexivity.
  - apply stores64_ok. unfold in_word, is_i32, two31 in *. lia.
Qed.
Lemma trunc64_ok st v : layout (rts st) -> readable64 (rts st) (pri st) -> value64 (rts st) (pri st) v ->
  exists r, exec false fe natives mi TRUNCATE_I64 st = Ok tt (put_reg Pri r st) /\ is_word 32 r v.
Proof.
  intros L Rp Vp. destruct st as [s p a]. cbn [rts pri alt] in *. apply value64_load in Vp. pose proof (readable_in _ _ L Rp).
  exists (wrap32 v). split; [|apply is_word32]. cbn [exec]. lf. rewrite acquire64_ok by assumption. rewrite rd64_ok by lia.
  cbn [rts pri alt]. now rewrite <- Vp.
Qed.
Lemma test64_ok st v : layout (rts st) -> readable64 (rts st) (pri st) -> value64 (rts st) (pri st) v ->
  exists r, exec false fe natives mi TEST_I64 st = Ok tt (put_reg Pri r st) /\ (r = 1 /\ v <> 0 \/ r = 0 /\ v = 0).
Proof.
  intros L Rp Vp. destruct st as [s p a]. cbn [rts pri alt] in *. apply value64_load in Vp. pose proof (readable_in _ _ L Rp).
  exists (b2z (negb (v =? 0))). split. { cbn [exec]. lf. rewrite acquire64_ok by assumption. rewrite rd64_ok by lia.
  cbn [rts pri alt]. now rewrite <- Vp. } unfold b2z. destruct (v =? 0) eqn:E; cbn [negb]; lia.
Qed.
Lemma store_c64_ok k c0 c1 st : layout (rts st) -> slot64_ok (rts st) (slot mi st k) -> is_i32 c0 -> is_i32 c1 ->
  exists s' v, exec false fe natives mi (STOR_S_C_I64 k c0 c1) st = Ok tt (mkIst s' (pri st) (alt st)) /\
    stores64 (rts st) s' (slot mi st k) v /\ v mod 2 ^ 64 = c0 mod 2 ^ 32 + 2 ^ 32 * (c1 mod 2 ^ 32).
Proof.
  intros L S H0 H1. destruct st as [s p a]. cbn [rts pri alt] in *. assert (S' := S). destruct S' as [[S0 _] S1].
  do 2 eexists. split; [|split].
  - cbn [exec]. lf. rewrite (slot64_get s k p a S). rewrite wr64_ok by lia. reflexivity.
  - apply stores64_ok. apply wrap64_range.
  - change (2 ^ 64) with two64. change (2 ^ 32) with two32. unfold wrap64, u32, is_i32, two31, two32, two63, two64 in *. lia.
Qed.
Lemma store_pri64_ok k st v : layout (rts st) -> slot64_ok (rts st) (slot mi st k) -> readable64 (rts st) (pri st) ->
  value64 (rts st) (pri st) v ->
  exists s', exec false fe natives mi (STOR_S_PRI_I64 k) st = Ok tt (mkIst s' (pri st) (alt st)) /\
    stores64 (rts st) s' (slot mi st k) v.
Proof.
  intros L S Rp Vp. destruct st as [s p a]. cbn [rts pri alt] in *. assert (Ip : in_word 64 v) by apply Vp. apply value64_load in Vp.
  pose proof (readable_in _ _ L Rp). assert (S' := S). destruct S' as [[S0 _] S1]. eexists. split.
  - cbn [exec]. lf. rewrite acquire64_ok by assumption. rewrite (slot64_get s k p a S). rewrite rd64_ok by lia. rewrite <- Vp.
    rewrite wr64_ok by lia. reflexivity.
  - now apply stores64_ok.
Qed.
(* An operand that is not eight addressable bytes is an error. *)
Lemma operand64_bad i st : layout (rts st) -> is_i32 (pri st) -> ~ readable64 (rts st) (pri st) ->
  match i with BIN64 _ _ | UN64 _ _ | CMP64 _ | TRUNCATE_I64 | TEST_I64 | STOR_S_PRI_I64 _ => True | _ => False end ->
  exec false fe natives mi i st = Fail INVALID_ADDRESS st.
Proof.
  intros L Hi Hr Hk. destruct st as [s p a]. cbn [rts pri alt] in *.
  destruct i; try contradiction; cbn [exec]; lf; now rewrite acquire64_bad.
Qed.
End Alu.

(* Concrete instances and refutations. *)
From Verif Require Import Array_Exec.
Definition demo64 : ist := mkIst (run_ops [OHeap 24; OStore 16 (-7); OStore 20 (-1); OStore 24 2; OStore 28 0;
  OPush 0; OPush 0; OPush 0; OPush 0] demo_rt) 16 24.
Lemma demo64_ok : layout (rts demo64) /\ readable64 (rts demo64) (pri demo64) /\ readable64 (rts demo64) (alt demo64) /\
  slot64_ok (rts demo64) (slot mi0 demo64 (-16)) /\
  value64 (rts demo64) (pri demo64) (-7) /\ value64 (rts demo64) (alt demo64) 2.
Proof.
  assert (SA : forall a, bad_address (rts demo64) a = false -> script_address (rts demo64) a) by (intros; now apply bad_address_spec).
  split. { constructor; vm_compute; (reflexivity || discriminate). }
  split. { split; apply SA; vm_compute; reflexivity. }
  split. { split; apply SA; vm_compute; reflexivity. }
  split. { split; [apply SA; vm_compute; reflexivity|vm_compute; discriminate]. }
  split; apply (proj2 (value64_load _ _ _)); vm_compute; reflexivity.
Qed.
Lemma shift_undefined : forall fe natives mi s, exec false fe natives mi SHL (mkIst s 1 32) = UB UBArith.
Proof. reflexivity. Qed.
Lemma add_undefined : forall fe natives mi s, exec true fe natives mi ADD (mkIst s 2147483647 1) = UB UBArith.
Proof. reflexivity. Qed.
Lemma shift64_undefined : exists s, layout s /\ readable64 s 16 /\ readable64 s 24 /\ value64 s 24 64 /\
  exec false fe0 (fun _ => None) mi0 (BIN64 Shl64 (-16)) (mkIst s 16 24) = UB UBArith.
Proof.
  set (s := run_ops [OHeap 24; OStore 24 64; OStore 28 0; OPush 0; OPush 0; OPush 0; OPush 0] demo_rt).
  assert (SA : forall a, bad_address s a = false -> script_address s a) by (intros; now apply bad_address_spec).
  exists s. split. { constructor; vm_compute; (reflexivity || discriminate). }
  split. { split; apply SA; vm_compute; reflexivity. }
  split. { split; apply SA; vm_compute; reflexivity. }
  split. { apply (proj2 (value64_load _ _ _)); vm_compute; reflexivity. }
  vm_compute. reflexivity.
Qed.
