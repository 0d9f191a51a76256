From Verif Require Import Base Base_Proofs Rt_Model Rt_Spec Rt_Proofs Interp_Model Alu_Spec Alu_Proofs Fold_Model Fold_Spec.
From Coq Require Import ZifyBool Lia.
Ltac Zify.zify_post_hook ::= Z.div_mod_to_equations.

Lemma is_i32b_spec z : is_i32b z = true <-> is_i32 z.
Proof. unfold is_i32b, is_i32. lia. Qed.

Lemma wrap32_shiftl_u32 x n : 0 <= n -> wrap32 (Z.shiftl (u32 x) n) = wrap32 (Z.shiftl x n).
Proof.
  intros H. rewrite !Z.shiftl_mul_pow2 by lia. apply wrap32_eq_mod. unfold u32.
  rewrite <- Z.mul_sub_distr_r.
  replace (x mod two32 - x) with (- (x / two32) * two32) by (pose proof (Z.div_mod x two32 ltac:(discriminate)); lia).
  replace (- (x / two32) * two32 * 2 ^ n) with (- (x / two32) * 2 ^ n * two32) by ring. apply Z.mod_mul. discriminate.
Qed.

Section Run.
Variable strict : bool.
Variable fe : fenv.
Variable nt : Z -> option native.
Variable mi : meth.
Notation Runs := (runs strict fe nt mi).
Notation Exec := (exec strict fe nt mi).

Lemma runs_end f code pc s : Z.of_nat (length code) <= pc -> Runs (S f) code pc s = Ok tt s.
Proof. intros H. cbn [runs]. now replace (Z.of_nat (length code) <=? pc) with true by lia. Qed.
Lemma runs_one f code pc i s : pc < Z.of_nat (length code) -> decode code pc = Some i ->
  Runs (S f) code pc s = (Exec i;;; Runs f code (pc + insn_size code pc)) s.
Proof. intros H D. cbn [runs]. replace (Z.of_nat (length code) <=? pc) with false by lia. now rewrite D. Qed.

Definition op_instr (op : binop) : instr :=
  match op with
  | BMul => SMUL | BDiv => SDIV_ALT_I32 | BMod => SMOD_ALT_I32 | BAdd => ADD | BSub => SUB_ALT
  | BShl => SHL | BSshr => SSHR | BShr => SHR | BAnd => AND | BXor => XOR | BOr => OR
  | BEq => CMP Eq | BNe => CMP Neq | BGt => CMP Sgrtr | BGe => CMP Sgeq | BLt => CMP Sless | BLe => CMP Sleq
  end.

(* The operator's instruction, the left operand in ALT and the right one in PRI before any exchange. *)
Definition op_exec (op : binop) (l r : Z) (s : rt) : res ist unit :=
  Exec (op_instr op) (if swaps op then mkIst s l r else mkIst s r l).

Lemma runs_ok f code pc i s s' : decode code pc = Some i -> pc < Z.of_nat (length code) -> Exec i s = Ok tt s' ->
  Runs (S f) code pc s = Runs f code (pc + insn_size code pc) s'.
Proof. intros D H E. rewrite (runs_one _ _ _ i) by auto. unfold bind. now rewrite E. Qed.
Lemma runs_last f code pc i s : decode code pc = Some i -> pc < Z.of_nat (length code) ->
  Z.of_nat (length code) <= pc + insn_size code pc ->
  Runs (S (S f)) code pc s = Exec i s.
Proof.
  intros D H E. rewrite (runs_one _ _ _ i) by auto. unfold bind. destruct (Exec i s) as [[] s'|e s'|u]; auto.
  now apply runs_end.
Qed.

Ltac stp := erewrite runs_ok; [|reflexivity|reflexivity|reflexivity].
Ltac lst := erewrite runs_last; [|reflexivity|reflexivity|discriminate].
Lemma does_op op l r s : does strict fe nt mi (const_operands l r ++ op_code op) s = op_exec op l r (rts s).
Proof.
  unfold does, const_operands, const_pri, const_alt, op_exec, op_code.
  destruct s as [s p a]; cbn [rts].
  destruct (r =? 0) eqn:R; [replace r with 0 by lia|]; (destruct (l =? 0) eqn:E; [replace l with 0 by lia|]);
  destruct op; cbn [app swaps int32_op length op_instr]; stp; stp; first [lst; reflexivity | stp; lst; reflexivity].
Qed.
Lemma does_unary f op v s : does strict fe nt mi (const_pri v ++ un_code f op) s =
  match f, op with
  | true, UNot => (Exec (F32_1 173);;; Exec NOT) (mkIst (rts s) v (alt s))
  | true, UNeg => Exec (F32_1 174) (mkIst (rts s) v (alt s))
  | _, UInv => Exec INVERT (mkIst (rts s) v (alt s))
  | _, UNot => Exec NOT (mkIst (rts s) v (alt s))
  | _, UNeg => Exec NEG (mkIst (rts s) v (alt s))
  end.
Proof.
  unfold does, const_pri. destruct s as [s p a]; cbn [rts alt].
  destruct (v =? 0) eqn:R; [replace v with 0 by lia|];
  destruct f, op; cbn [app un_code length]; stp; first [lst; reflexivity | stp; lst; reflexivity | stp; lst; now destruct (f1 fe 173 _) ].
Qed.

(* The operator's instruction computes its meaning (wrapping) or is undefined where C++ is (strict). *)
Lemma sarith_ok z s : sarith strict z s = if is_i32b z then Ok z s else if strict then UB UBArith else Ok (wrap32 z) s.
Proof. unfold sarith. destruct (is_i32b z), strict; reflexivity. Qed.
Lemma op_agrees op l r s : is_i32 l -> is_i32 r -> ~ ((op = BDiv \/ op = BMod) /\ l = - 2 ^ 31 /\ r = -1) ->
  agrees (calc strict op l r) (op_exec op l r (rts s)) s.
Proof.
  intros Hl Hr X. destruct s as [s p a]; cbn [rts]. unfold op_exec.
  assert (D : forall f v, (f = BDiv \/ f = BMod) -> op = f ->
    agrees (if r =? 0 then Reported 29 else if (l =? - two31) && (r =? -1) then Trap else Folded v)
      (match check_div l r (mkIst s r l) with Ok _ st => Ok tt (mkIst (rts st) v (alt st)) | Fail e st => Fail e st | UB u => UB u end)
      (mkIst s p a)).
  { intros f v F ->. unfold check_div. destruct (r =? 0) eqn:R.
    - eexists _, _. split; [reflexivity|auto].
    - destruct ((l =? - two31) && (r =? -1)) eqn:B.
      + exfalso. apply X. split; [exact F|]. change two31 with (2 ^ 31) in B. lia.
      + rewrite andb_comm in B. rewrite B. cbn. eauto. }
  assert (A : forall z1 z2, z1 = z2 -> agrees (carith strict z1)
    (match sarith strict z2 (mkIst s r l) with Ok v st => Ok tt (mkIst (rts st) v (alt st)) | Fail e st => Fail e st | UB u => UB u end)
    (mkIst s p a)).
  { intros z1 z2 ->. rewrite sarith_ok. unfold carith. destruct (is_i32b z2); [|destruct strict]; cbn [agrees];
    first [reflexivity|eexists; split; [reflexivity|split; reflexivity]]. }
  destruct op; cbn [swaps op_instr calc exec]; unfold bind, getr, setr; cbn [pri alt rts];
  first [apply A; lia | unfold cshift, shl32, shr32, sshr32; try (eexists; split; [reflexivity|split; reflexivity])].
  - exact (D BDiv _ ltac:(auto) eq_refl).
  - exact (D BMod _ ltac:(auto) eq_refl).
  - destruct ((0 <=? r) && (r <? 32)) eqn:B; [|reflexivity]. cbn. eexists; split; [reflexivity|split; [|reflexivity]].
    cbn. rewrite wrap32_shiftl_u32 by lia. reflexivity.
  - destruct ((0 <=? r) && (r <? 32)) eqn:B; [|reflexivity]. cbn. eexists; split; [reflexivity|split; reflexivity].
  - destruct ((0 <=? r) && (r <? 32)) eqn:B; [|reflexivity]. cbn. eexists; split; [reflexivity|split; reflexivity].
  - rewrite Z.land_comm. eexists; split; [reflexivity|split; reflexivity].
  - rewrite Z.lxor_comm. eexists; split; [reflexivity|split; reflexivity].
  - rewrite Z.lor_comm. eexists; split; [reflexivity|split; reflexivity].
  - rewrite Z.eqb_sym. eexists; split; [reflexivity|split; reflexivity].
  - rewrite Z.eqb_sym. eexists; split; [reflexivity|split; reflexivity].
Qed.

Lemma fold_agrees op l r s : is_i32 l -> is_i32 r ->
  agrees (FoldToConstant strict op l r) (op_exec op l r (rts s)) s.
Proof.
  intros Hl Hr.
  assert (C : ~ ((op = BDiv \/ op = BMod) /\ l = - 2 ^ 31 /\ r = -1) \/
              ((op = BDiv \/ op = BMod) /\ l = - 2 ^ 31 /\ r = -1)).
  { destruct op; try (left; intros [[?|?] _]; discriminate);
    destruct (Z.eq_dec l (- 2 ^ 31)), (Z.eq_dec r (-1)); subst;
    try (left; intros [_ [? ?]]; contradiction); right; auto. }
  destruct C as [C|[C [-> ->]]].
  - pose proof (op_agrees op l r s Hl Hr C) as A.
    destruct op; try exact A; try exact Logic.I; cbn [calc FoldToConstant] in *.
    + destruct (r =? 0) eqn:R; [exact A|]. destruct ((l =? - two31) && (r =? -1)) eqn:B; [|exact A].
      exfalso. apply C. split; auto. change two31 with (2 ^ 31) in B. lia.
    + destruct (r =? 0) eqn:R; [exact A|]. destruct ((l =? - two31) && (r =? -1)) eqn:B; [|exact A].
      exfalso. apply C. split; auto. change two31 with (2 ^ 31) in B. lia.
    + unfold cshift in *. destruct ((0 <=? r) && (r <? 32)) eqn:B; [|exact A]. rewrite wrap32_shiftl_u32 in A by lia. exact A.
  - destruct C as [-> | ->]; (eexists _, _; split; [reflexivity|right; reflexivity]).
Qed.

Lemma unary_agrees op v s : is_i32 v ->
  agrees (fold_unary strict op v) (does strict fe nt mi (const_pri v ++ un_code false op) s) s.
Proof.
  intros H. rewrite does_unary. destruct op; cbn [fold_unary exec]; unfold bind, getr, setr; cbn [pri alt rts].
  - eexists; split; [reflexivity|split; reflexivity].
  - eexists; split; [reflexivity|split; reflexivity].
  - rewrite sarith_ok. unfold carith. destruct (is_i32b _); [|destruct strict]; cbn; try reflexivity; eexists; split; [reflexivity|split; reflexivity| |];
    try (split; reflexivity); reflexivity.
Qed.
End Run.

(* calc in terms of the operators' meaning. *)
Lemma calc_means op l r : is_i32 l -> is_i32 r ->
  match calc false op l r with
  | Folded v => means op l r = OVal v
  | Reported _ => means op l r = OErr DIVIDE_BY_ZERO
  | _ => means op l r = OUndef \/ means op l r = OErr INTEGER_OVERFLOW
  end.
Proof.
  intros Hl Hr.
  assert (A : forall z, carith false z = Folded (wrap32 z)).
  { intros z. unfold carith. destruct (is_i32b z) eqn:E; auto. rewrite wrap32_id; auto. now apply is_i32b_spec. }
  destruct op; cbn [calc means]; rewrite ?A; auto;
  unfold cshift, shifted, divided, truth, b2z; change (2 ^ 31) with two31;
  try (replace (l >? r) with (r <? l) by lia); try (replace (l >=? r) with (r <=? l) by lia); auto.
  - destruct (r =? 0) eqn:R; auto. destruct ((l =? - two31) && (r =? -1)) eqn:B; auto.
  - destruct (r =? 0) eqn:R; auto. destruct ((l =? - two31) && (r =? -1)) eqn:B; auto.
  - replace (r <=? 31) with (r <? 32) by lia. destruct ((0 <=? r) && (r <? 32)) eqn:B; auto.
    rewrite wrap32_shiftl_u32, Z.shiftl_mul_pow2 by lia. reflexivity.
  - replace (r <=? 31) with (r <? 32) by lia. destruct ((0 <=? r) && (r <? 32)) eqn:B; auto.
    rewrite Z.shiftr_div_pow2 by lia. reflexivity.
  - replace (r <=? 31) with (r <? 32) by lia. destruct ((0 <=? r) && (r <? 32)) eqn:B; auto.
    rewrite Z.shiftr_div_pow2 by lia. reflexivity.
Qed.
Lemma calc_range op l r v : is_i32 l -> is_i32 r -> calc false op l r = Folded v -> is_i32 v.
Proof.
  intros Hl Hr.
  assert (A : forall z, carith false z = Folded v -> is_i32 v).
  { intros z. unfold carith. destruct (is_i32b z) eqn:E; intros [= <-]; [now apply is_i32b_spec|apply wrap32_range]. }
  assert (T : forall b, is_i32 (b2z b)) by (intros []; split; vm_compute; congruence).
  assert (Q : forall q, ((l =? - two31) && (r =? -1) = false -> r <> 0 -> is_i32 q) ->
    (if r =? 0 then Reported 29 else if (l =? - two31) && (r =? -1) then Trap else Folded q) = Folded v -> is_i32 v).
  { intros q K. destruct (r =? 0) eqn:R; [discriminate|]. destruct ((l =? - two31) && (r =? -1)) eqn:B; [discriminate|].
    intros [= <-]. apply K; [reflexivity|lia]. }
  assert (Sh : forall q, (0 <= r < 32 -> is_i32 q) -> cshift r q = Folded v -> is_i32 v).
  { intros q K. unfold cshift. destruct ((0 <=? r) && (r <? 32)) eqn:B; [|discriminate]. intros [= <-]. apply K. lia. }
  destruct op; cbn [calc]; first [apply A | apply Q | apply Sh | intros [= <-]]; auto.
  - intros B R. apply (word_quot 32); auto; [lia|]. change two31 with (2 ^ (32 - 1)) in B. lia.
  - intros B R. apply (word_rem 32); auto.
  - intros. apply wrap32_range.
  - intros. apply (word_shiftr 32); auto; lia.
  - intros. apply wrap32_range.
  - now apply i32_land.
  - now apply i32_lxor.
  - now apply i32_lor.
Qed.

Lemma chain_all ops : forall acc l, fold_chain acc l ops =
  truth (acc && forallb (fun t => let '(x, op, y) := t in link op x y)
           (combine (combine (l :: map snd ops) (map fst ops)) (map snd ops))).
Proof.
  induction ops as [|[op r] ops IH]; intros acc l; cbn [fold_chain map combine forallb fst snd].
  - now rewrite andb_true_r.
  - rewrite IH. now rewrite andb_assoc.
Qed.

(* Whole code sequences. *)
Lemma calc_run strict fe nt mi op l r s : is_i32 l -> is_i32 r ->
  ~ ((op = BDiv \/ op = BMod) /\ l = - 2 ^ 31 /\ r = -1) ->
  agrees (calc strict op l r) (does strict fe nt mi (const_operands l r ++ op_code op) s) s.
Proof. intros. rewrite does_op. now apply op_agrees. Qed.
Lemma fold_run strict fe nt mi op l r s : is_i32 l -> is_i32 r ->
  agrees (FoldToConstant strict op l r) (does strict fe nt mi (const_operands l r ++ op_code op) s) s.
Proof. intros. rewrite does_op. now apply fold_agrees. Qed.

Lemma calc_int_min strict fe nt mi s :
  calc strict BDiv (- 2 ^ 31) (-1) = Trap /\ calc strict BMod (- 2 ^ 31) (-1) = Trap /\
  (exists s', does strict fe nt mi (const_operands (- 2 ^ 31) (-1) ++ op_code BDiv) s = Fail INTEGER_OVERFLOW s') /\
  (exists s', does strict fe nt mi (const_operands (- 2 ^ 31) (-1) ++ op_code BMod) s = Fail INTEGER_OVERFLOW s').
Proof.
  split; [reflexivity|]. split; [reflexivity|]. split; eexists; rewrite does_op; reflexivity.
Qed.

Lemma finite_int_min : f32_finite (- 2 ^ 31). Proof. unfold f32_finite. vm_compute. discriminate. Qed.
Lemma float_not strict fe nt mi s : ieee fe ->
  fold_unary strict UNot (- 2 ^ 31) = Folded 0 /\
  exists s', does strict fe nt mi (const_pri (- 2 ^ 31) ++ un_code true UNot) s = Ok tt s' /\ pri s' = 1.
Proof.
  intros [_ T]. split; [reflexivity|]. rewrite does_unary. cbn [exec]. unfold bind, getr, setr. cbn [pri alt rts].
  rewrite T by apply finite_int_min. eexists. split; [reflexivity|]. reflexivity.
Qed.

(* The cells of -2.0, -1.0 and -0.5. *)
Lemma float_chain strict fe nt mi s : ieee fe ->
  exists x y z, f32_scaled x = -2 * 2 ^ 149 /\ f32_scaled y = -1 * 2 ^ 149 /\ 2 * f32_scaled z = -1 * 2 ^ 149 /\
    fold_chain true x [(BLt, y); (BLt, z)] = 0 /\ float_op BLt = Some 181 /\
    (exists s', does strict fe nt mi (const_operands x y ++ [35; 181]) s = Ok tt s' /\ pri s' = 1) /\
    (exists s', does strict fe nt mi (const_operands y z ++ [35; 181]) s = Ok tt s' /\ pri s' = 1).
Proof.
  intros [L _]. exists (-1073741824), (-1082130432), (-1090519040).
  split; [reflexivity|]. split; [reflexivity|]. split; [reflexivity|]. split; [reflexivity|]. split; [reflexivity|].
  split; eexists; (split; [unfold does; cbn [const_operands const_pri const_alt app length Z.eqb];
    erewrite runs_ok by reflexivity; erewrite runs_ok by reflexivity; erewrite runs_ok by reflexivity;
    erewrite runs_last; [|reflexivity|reflexivity|discriminate]; reflexivity|]);
  cbn [pri]; rewrite L by (unfold f32_finite; vm_compute; discriminate); reflexivity.
Qed.

Lemma ternary_ok c s t v : fold_ternary c s t = Folded v -> c = Some 0 /\ t = Some v.
Proof.
  unfold fold_ternary. destruct c as [c|]; [|discriminate]. destruct s; [discriminate|]. destruct t; [|discriminate].
  destruct (c =? 0) eqn:E; [|discriminate]. intros [= <-]. split; auto. f_equal. lia.
Qed.

(* A host that compares floats as IEEE 754 prescribes. *)
Definition ieee_host : fenv := mkFenv
  (fun op p => if op =? 173 then truth (negb (f32_scaled p =? 0)) else p)
  (fun op p a => if op =? 181 then truth (f32_scaled p <? f32_scaled a) else p) (fun x => x) (fun _ x _ => x) (fun _ x => x).
Lemma ieee_exists : ieee ieee_host.
Proof. split; reflexivity. Qed.
