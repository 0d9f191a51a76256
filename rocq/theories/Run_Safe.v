(* Safety of a whole run of the interpreter. *)
From Verif Require Import Base Base_Proofs Rt_Model Array_Model Interp_Model Rt_Spec Rt_Proofs Hist_Proofs
  Array_Spec Array_Proofs Array_Exec Mem_Spec Mem_Proofs Init_Proofs Exec_Safe.
From Coq Require Import ZifyBool.
Ltac Zify.zify_post_hook ::= Z.div_mod_to_equations.

(* ---- The registers hold 32-bit values ---- *)
Definition regs32 (st : ist) : Prop := is_i32 (pri st) /\ is_i32 (alt st).
Definition ranged {A} (m : IM A) (Q : A -> Prop) : Prop :=
  forall st, regs32 st -> match m st with Ok a st' => Q a /\ regs32 st' | _ => True end.
Lemma ranged_bind A B (m : IM A) (k : A -> IM B) Q P : ranged m Q -> (forall a, Q a -> ranged (k a) P) -> ranged (bind m k) P.
Proof.
  intros Hm Hk st H. specialize (Hm st H). unfold bind. destruct (m st) as [a st'| |]; auto. destruct Hm. now apply Hk.
Qed.
Lemma ranged_ret A (a : A) (Q : A -> Prop) : Q a -> ranged (ret a) Q. Proof. intros H st R. split; auto. Qed.
Lemma ranged_fail A e (Q : A -> Prop) : ranged (fail e) Q. Proof. intros st R. exact Logic.I. Qed.
Lemma ranged_undef A u (Q : A -> Prop) : ranged (undef u) Q. Proof. intros st R. exact Logic.I. Qed.
Lemma ranged_getr r : ranged (getr r) is_i32. Proof. intros st [H1 H2]. unfold getr. destruct r; (split; [|split]); assumption. Qed.
Lemma ranged_setr r v : is_i32 v -> ranged (setr r v) (fun _ => True).
Proof. intros Hv st [H1 H2]. unfold setr. destruct r; (split; [|split]); auto. Qed.
Definition gives {A} (m : RM A) (Q : A -> Prop) : Prop := forall s, match m s with Ok a _ => Q a | _ => True end.
Lemma ranged_lift A (m : RM A) Q : gives m Q -> ranged (lift m) Q.
Proof. intros H st R. unfold lift. specialize (H (rts st)). destruct (m (rts st)); auto. Qed.
Lemma gives_any A (m : RM A) : gives m (fun _ => True). Proof. intros s. now destruct (m s). Qed.
Lemma gives_bind A B (m : RM A) (k : A -> RM B) P : (forall a, gives (k a) P) -> gives (bind m k) P.
Proof. intros H s. unfold bind. destruct (m s); auto. apply H. Qed.
Lemma gives_ret A (a : A) (Q : A -> Prop) : Q a -> gives (ret a) Q. Proof. intros H s. exact H. Qed.
Lemma gives_rd32 a : gives (rd32 a) is_i32.
Proof. intros s. unfold rd32. destruct (in_mem s a 4); auto. apply load32_range. Qed.
Lemma gives_getCell a : gives (getCellValue a) is_i32. Proof. unfold getCellValue. apply gives_bind. intros. apply gives_rd32. Qed.
Lemma gives_getFrame a : gives (getFrameValue a) is_i32.
Proof. intros s. rewrite getFrameValue_eq. apply gives_getCell. Qed.
Lemma gives_pop : gives popStack is_i32.
Proof.
  intros s. unfold popStack, bind, get, throw_if. destruct (sp s >=? stp s); [exact Logic.I|].
  cbn [ret]. unfold rd32. destruct (in_mem s (sp s) 4); [apply load32_range|exact Logic.I].
Qed.

Lemma i32_bits (f : Z -> Z -> Z) (g : bool -> bool -> bool) :
  (forall x y n, Z.testbit (f x y) n = g (Z.testbit x n) (Z.testbit y n)) ->
  forall x y, is_i32 x -> is_i32 y -> is_i32 (f x y).
Proof.
  (* A value is in range iff all bits from 31 up equal bit 31. *)
  assert (P1 : forall x n, is_i32 x -> 31 <= n -> Z.testbit x n = (x <? 0)).
  { intros x n Hx Hn. destruct (x <? 0) eqn:E.
    - rewrite Z.testbit_eqb by lia. assert (X : x / 2 ^ n = -1).
      { symmetry; apply Z.div_unique with (x + 2 ^ n); [left|lia].
        assert (2 ^ 31 <= 2 ^ n) by (apply Z.pow_le_mono_r; lia). change (2 ^ 31) with two31 in *. unfold is_i32 in *. lia. }
      now rewrite X.
    - rewrite Z.testbit_eqb by lia. assert (X : x / 2 ^ n = 0).
      { apply Z.div_small. assert (2 ^ 31 <= 2 ^ n) by (apply Z.pow_le_mono_r; lia). change (2 ^ 31) with two31 in *. unfold is_i32 in *. lia. }
      now rewrite X. }
  assert (P2 : forall x b, (forall n, 31 <= n -> Z.testbit x n = b) -> is_i32 x).
  { intros x b H. assert (E : x / 2 ^ 31 = if b then -1 else 0).
    { apply Z.bits_inj'. intros n Hn. rewrite Z.div_pow2_bits by lia. rewrite H by lia.
      destruct b; [now rewrite Z.bits_m1|now rewrite Z.bits_0]. }
    change (2 ^ 31) with two31 in E. unfold is_i32. unb. destruct b; lia. }
  intros Hf x y Hx Hy. apply (P2 _ (g (x <? 0) (y <? 0))). intros n Hn. now rewrite Hf, !P1.
Qed.
Lemma i32_land x y : is_i32 x -> is_i32 y -> is_i32 (Z.land x y). Proof. apply (i32_bits _ andb). intros. apply Z.land_spec. Qed.
Lemma i32_lor x y : is_i32 x -> is_i32 y -> is_i32 (Z.lor x y). Proof. apply (i32_bits _ orb). intros. apply Z.lor_spec. Qed.
Lemma i32_lxor x y : is_i32 x -> is_i32 y -> is_i32 (Z.lxor x y). Proof. apply (i32_bits _ xorb). intros. apply Z.lxor_spec. Qed.
Lemma i32_lnot x : is_i32 x -> is_i32 (Z.lnot x). Proof. unfold Z.lnot, is_i32. lia. Qed.
Lemma i32_shiftr x n : is_i32 x -> 0 <= n -> is_i32 (Z.shiftr x n).
Proof.
  intros H Hn. rewrite Z.shiftr_div_pow2 by lia. assert (1 <= 2 ^ n) by (apply (Z.pow_le_mono_r 2 0 n); lia).
  unfold is_i32 in *. assert (- two31 <= x / 2 ^ n < two31); [|lia]. split.
  - apply Z.div_le_lower_bound; [lia|]. unfold two31 in *. nia.
  - apply Z.div_lt_upper_bound; [lia|]. unfold two31 in *. nia.
Qed.
Lemma i32_quot x y : is_i32 x -> is_i32 y -> y <> 0 -> ~ (y = -1 /\ x = - two31) -> is_i32 (Z.quot x y).
Proof.
  intros Hx Hy H0 H1. pose proof (Z.quot_rem' x y) as E. pose proof (Z.rem_bound_abs x y H0) as B.
  assert (A : Z.abs (Z.quot x y) <= Z.abs x).
  { rewrite <- Z.quot_abs by lia. apply Z.quot_le_upper_bound; [lia|]. nia. }
  unfold is_i32 in *. destruct (Z.eq_dec x (- two31)) as [->|].
  - destruct (Z.eq_dec y 1) as [->|]; [rewrite Z.quot_1_r; unfold two31; lia|].
    assert (2 <= Z.abs y) by lia.
    assert (Z.abs (Z.quot (- two31) y) * 2 <= two31); [|lia].
    rewrite <- Z.quot_abs by lia. change (Z.abs (- two31)) with two31.
    assert (Z.abs y * Z.quot two31 (Z.abs y) <= two31) by (apply Z.mul_quot_le; unfold two31; lia).
    assert (0 <= Z.quot two31 (Z.abs y)) by (apply Z.quot_pos; unfold two31; lia). nia.
  - lia.
Qed.
Lemma i32_rem x y : is_i32 x -> is_i32 y -> y <> 0 -> is_i32 (Z.rem x y).
Proof. intros Hx Hy H0. pose proof (Z.rem_bound_abs x y H0). unfold is_i32 in *. lia. Qed.

Lemma i32_wrap z : is_i32 (wrap32 z). Proof. apply wrap32_range. Qed.
Lemma i32_b2z b : is_i32 (b2z b). Proof. destruct b; unfold b2z, is_i32, two31; lia. Qed.
Lemma i32_mask v : is_i32 v -> forall m, 0 <= m < two31 -> is_i32 (Z.land v m).
Proof. intros H m Hm. apply i32_land; [exact H|]. unfold is_i32, two31 in *. lia. Qed.
Lemma ranged_sarith z : ranged (sarith false z) is_i32.
Proof.
  unfold sarith. destruct (is_i32b z) eqn:E; apply ranged_ret; [|apply wrap32_range].
  unfold is_i32b in E. unfold is_i32. lia.
Qed.
Lemma ranged_shl x n : ranged (shl32 x n) is_i32.
Proof. unfold shl32. destruct (_ && _); [apply ranged_ret, wrap32_range|apply ranged_undef]. Qed.
Lemma ranged_shr x n : ranged (shr32 x n) is_i32.
Proof. unfold shr32. destruct (_ && _); [apply ranged_ret, wrap32_range|apply ranged_undef]. Qed.
Lemma ranged_sshr x n : is_i32 x -> ranged (sshr32 x n) is_i32.
Proof. intros H. unfold sshr32. destruct (_ && _) eqn:E; [apply ranged_ret, i32_shiftr; [exact H|lia]|apply ranged_undef]. Qed.
Lemma ranged_if A (b : bool) (m1 m2 : IM A) P : ranged m1 P -> ranged m2 P -> ranged (if b then m1 else m2) P.
Proof. destruct b; auto. Qed.
Lemma ranged_any A (m : IM A) (P : A -> Prop) : ranged m P -> ranged m (fun _ => True).
Proof. intros H st R. specialize (H st R). destruct (m st); auto. split; [exact Logic.I|apply H]. Qed.
Lemma ranged_div {A} p d (k : IM A) P : is_i32 p -> is_i32 d ->
  (d <> 0 -> ~ (d = -1 /\ p = - two31) -> ranged k P) -> ranged (check_div p d;;; k) P.
Proof.
  intros Hp Hd H. unfold check_div. destruct (d =? 0) eqn:E1.
  - intros st R. exact Logic.I.
  - destruct ((d =? -1) && (p =? - two31)) eqn:E2; [intros st R; exact Logic.I|].
    eapply ranged_bind with (Q := fun _ => True); [now apply ranged_ret|]. intros _ _. apply H; lia.
Qed.
Lemma ranged_eval64 op p a : ranged (eval_bin64 false op p a) (fun _ => True).
Proof.
  intros st R. destruct op; cbn [eval_bin64]; unfold sarith64, check_div64, bind, ret, fail, undef;
    repeat match goal with |- context [if ?b then _ else _] => destruct b end; cbv beta iota; auto.
Qed.

Section Ranged.
Variables (fe : fenv) (nat_ : Z -> option native) (mi : meth).
Hypothesis HR : forall n nt f s v s', nat_ n = Some nt -> n_fn nt = Some f -> f s = Ok v s' -> is_i32 v.
Hypothesis HF : (forall n a, is_i32 a -> is_i32 (f1 fe n a)) /\ (forall n a b, is_i32 a -> is_i32 b -> is_i32 (f2 fe n a b)) /\
    (forall a, is_i32 a -> is_i32 (fcvt fe a)) /\ (forall n a b, is_i32 a -> is_i32 b -> is_i32 (fbin fe n a b)) /\
    (forall n a, is_i32 a -> is_i32 (fun1 fe n a)).

Lemma ranged_native n : ranged (invokeNative nat_ n) (fun _ => True).
Proof.
  intros st [R1 R2]. unfold invokeNative. destruct (nat_ n) as [nt|] eqn:E; [|exact Logic.I].
  destruct (n_fn nt) as [f|] eqn:F; [|exact Logic.I]. destruct (f (rts st)) as [v s'| |] eqn:G; auto.
  split; [exact Logic.I|]. split; cbn [pri alt]; [eapply HR; eauto|exact R2].
Qed.

(* The operands of constant-loading instructions are cells of the code. *)
Definition const_ok (i : instr) : Prop := match i with CONST _ v => is_i32 v | _ => True end.

Ltac rg := repeat first
  [ apply ranged_getr | (apply ranged_setr; try assumption) | apply ranged_fail | apply ranged_undef | apply ranged_sarith | apply ranged_shl
  | apply ranged_shr | (apply ranged_sshr; assumption) | apply ranged_native | apply ranged_if | (apply ranged_ret; exact Logic.I)
  | (apply ranged_lift; first [apply gives_getCell | apply gives_getFrame | apply gives_pop | apply gives_any])
  | match goal with |- ranged (bind (getr _) _) _ => eapply ranged_bind; [apply ranged_getr|intros ? ?] end
  | match goal with |- ranged (bind (lift (getCellValue _)) _) _ => eapply ranged_bind; [apply ranged_lift, gives_getCell|intros ? ?] end
  | match goal with |- ranged (bind (lift (getFrameValue _)) _) _ => eapply ranged_bind; [apply ranged_lift, gives_getFrame|intros ? ?] end
  | match goal with |- ranged (bind (lift popStack) _) _ => eapply ranged_bind; [apply ranged_lift, gives_pop|intros ? ?] end
  | match goal with |- ranged (bind (lift _) _) _ => eapply ranged_bind; [apply ranged_lift, gives_any|intros ? _] end
  | match goal with |- ranged (bind (setr _ _) _) _ => eapply ranged_bind; [apply ranged_setr; try assumption|intros ? _] end
  | match goal with |- ranged (bind (sarith _ _) _) _ => eapply ranged_bind; [apply ranged_sarith|intros ? ?] end
  | match goal with |- ranged (bind (shl32 _ _) _) _ => eapply ranged_bind; [apply ranged_shl|intros ? ?] end
  | match goal with |- ranged (bind (shr32 _ _) _) _ => eapply ranged_bind; [apply ranged_shr|intros ? ?] end
  | match goal with |- ranged (bind (sshr32 _ _) _) _ => eapply ranged_bind; [apply ranged_sshr; assumption|intros ? ?] end
  | match goal with |- ranged (bind (invokeNative _ _) _) _ => eapply ranged_bind; [apply ranged_native|intros ? _] end
  | match goal with |- ranged (bind (eval_bin64 _ _ _ _) _) _ => eapply ranged_bind; [apply ranged_eval64|intros ? _] end
  | match goal with |- ranged (bind (check_div _ _) _) _ => apply ranged_div; [assumption..|intros ? ?] end ]
.

Lemma ranged_fstack f : ranged (exec_fstack fe f) (fun _ => True).
Proof.
  destruct HF as (F1 & F2 & F3 & F4 & F5). destruct f; cbn [exec_fstack]; rg; auto.
  apply i32_land; [assumption|]. unfold is_i32, two31. lia.
Qed.

Lemma ranged_exec i : const_ok i -> (forall n, i <> HEAP n) -> ranged (exec false fe nat_ mi i) (fun _ => True).
Proof.
  intros C NH. destruct HF as (F1 & F2 & F3 & F4 & F5).
  destruct i; try (now destruct (NH a)); try (destruct r); try (destruct z); cbn [exec const_ok] in *; try (rg; fail).
  all: try (rg; apply i32_wrap || apply i32_b2z || (apply i32_land; assumption) || (apply i32_lor; assumption) || (apply i32_lxor; assumption)
    || (apply i32_lnot; assumption) || (apply i32_quot; assumption) || (apply i32_rem; assumption) || (unfold is_i32, two31; lia); fail).
  - rg; (apply i32_land; [assumption|unfold is_i32, two31; lia]).
  - eapply ranged_bind; [apply ranged_getr|intros p Hp]. eapply ranged_bind with (Q := is_i32).
    + apply ranged_lift. do 3 (apply gives_bind; intros ?). apply gives_ret, i32_wrap.
    + intros a Ha. now apply ranged_setr.
  - eapply ranged_bind; [apply ranged_getr|intros p Hp]. do 3 (eapply ranged_bind; [apply ranged_lift, gives_any|intros ? _]).
    eapply ranged_bind with (Q := fun _ => True).
    + destruct op; [now apply ranged_ret|]. unfold sarith64. destruct (is_i64b _); now apply ranged_ret.
    + intros. rg. apply i32_wrap.
  - rg; auto.
  - rg; auto.
  - destruct (nat_ n) as [nt|]; [|apply ranged_undef]. destruct (n_fn nt); [destruct (n_repl nt); [apply ranged_fstack|]|]; rg.
  - rg. apply i32_shiftr; [assumption|lia].
Qed.
End Ranged.

Lemma exec_ranged fe nat_ mi i st st' :
  (forall n nt f s v s', nat_ n = Some nt -> n_fn nt = Some f -> f s = Ok v s' -> is_i32 v) ->
  (forall n a, is_i32 a -> is_i32 (f1 fe n a)) /\ (forall n a b, is_i32 a -> is_i32 b -> is_i32 (f2 fe n a b)) /\
    (forall a, is_i32 a -> is_i32 (fcvt fe a)) /\ (forall n a b, is_i32 a -> is_i32 b -> is_i32 (fbin fe n a b)) /\
    (forall n a, is_i32 a -> is_i32 (fun1 fe n a)) ->
  const_ok i -> I (rts st) -> regs32 st -> exec false fe nat_ mi i st = Ok tt st' -> regs32 st'.
Proof.
  intros HR HF C HI R E. assert (X : (exists n, i = HEAP n) \/ forall n, i <> HEAP n).
  { destruct i; try (right; discriminate). left. eauto. }
  destruct X as [(n & ->)|X].
  - cbn [exec] in E. unfold bind, lift, setr in E. destruct (heapAlloc n (rts st)) as [h s'| |] eqn:G; try discriminate.
    cbn [rts pri alt] in E. assert (st' = mkIst s' (pri st) h) as -> by congruence. split; [apply R|]. cbn [alt].
    unfold heapAlloc, bind, get, put, ret in G. destruct (n <? 0); unfold throw_if, ret, fail in G;
      (match type of G with match (if ?b then _ else _) _ with _ => _ end = _ => destruct b end); try discriminate;
      (injection G as <- _); destruct HI; dlay; bnd.
  - pose proof (ranged_exec fe nat_ mi HR HF i C X st R) as Q. rewrite E in Q. apply Q.
Qed.
