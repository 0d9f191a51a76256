(* C27. The hypotheses are met: see the example under each theorem. *)
From Verif Require Import Base Rt_Model Interp_Model Fold_Model Fold_Spec Fold_Proofs.

(* Folding an operator over two constants gives what the VM computes when it runs the code the compiler
   would have emitted for them; reports an error exactly where the VM raises one; and is undefined
   exactly where the VM's own arithmetic is. The exception is INT_MIN / -1, see below. *)
Theorem C27_calc_partial : forall strict fe nt mi op l r s, is_i32 l -> is_i32 r ->
  ~ ((op = BDiv \/ op = BMod) /\ l = - 2 ^ 31 /\ r = -1) ->
  agrees (calc strict op l r) (does strict fe nt mi (const_operands l r ++ op_code op) s) s.
Proof. exact calc_run. Qed.
Print Assumptions C27_calc_partial.

Example calc_minus7_mod_3 : calc true BMod (-7) 3 = Folded (-1) /\ calc true BDiv 5 0 = Reported 29 /\
  calc false BMul 65536 65537 = Folded 65536 /\ calc true BMul 65536 65537 = Trap.
Proof. repeat split. Qed.

(* The folding used for initialisers, case labels, enum values and the like has no exception. *)
Theorem C27_initialisers : forall strict fe nt mi op l r s, is_i32 l -> is_i32 r ->
  agrees (FoldToConstant strict op l r) (does strict fe nt mi (const_operands l r ++ op_code op) s) s.
Proof. exact fold_run. Qed.
Print Assumptions C27_initialisers.

Theorem C27_unary : forall strict fe nt mi op v s, is_i32 v ->
  agrees (fold_unary strict op v) (does strict fe nt mi (const_pri v ++ un_code false op) s) s.
Proof. exact unary_agrees. Qed.
Print Assumptions C27_unary.

(* Both in terms of the operators' meaning on integers. *)
Theorem C27_meaning : forall op l r, is_i32 l -> is_i32 r ->
  match calc false op l r with
  | Folded v => means op l r = OVal v
  | Reported _ => means op l r = OErr DIVIDE_BY_ZERO
  | _ => means op l r = OUndef \/ means op l r = OErr INTEGER_OVERFLOW
  end.
Proof. exact calc_means. Qed.
Print Assumptions C27_meaning.

(* A chain of comparisons over constants folds to the conjunction of its links. *)
Theorem C27_chain : forall ops acc l, fold_chain acc l ops =
  truth (acc && forallb (fun t => let '(x, op, y) := t in link op x y)
           (combine (combine (l :: map snd ops) (map fst ops)) (map snd ops))).
Proof. exact chain_all. Qed.
Print Assumptions C27_chain.
Example chain_1_2_3 : fold_chain true 1 [(BLt, 2); (BLt, 3)] = 1 /\ fold_chain true 1 [(BLt, 2); (BGe, 3)] = 0.
Proof. split; reflexivity. Qed.

(* INT_MIN / -1 between constants is evaluated by the compiler itself, undefined (a trap on x86), although
   the VM raises an error for it. *)
Theorem C27_int_min_refuted : forall strict fe nt mi s,
  calc strict BDiv (- 2 ^ 31) (-1) = Trap /\ calc strict BMod (- 2 ^ 31) (-1) = Trap /\
  (exists s', does strict fe nt mi (const_operands (- 2 ^ 31) (-1) ++ op_code BDiv) s = Fail INTEGER_OVERFLOW s') /\
  (exists s', does strict fe nt mi (const_operands (- 2 ^ 31) (-1) ++ op_code BMod) s = Fail INTEGER_OVERFLOW s').
Proof. exact calc_int_min. Qed.
Print Assumptions C27_int_min_refuted.

(* !(-0.0) folds to false; the VM computes true. *)
Theorem C27_float_not_refuted : forall strict fe nt mi s, ieee fe ->
  fold_unary strict UNot (- 2 ^ 31) = Folded 0 /\
  exists s', does strict fe nt mi (const_pri (- 2 ^ 31) ++ un_code true UNot) s = Ok tt s' /\ pri s' = 1.
Proof. exact float_not. Qed.
Print Assumptions C27_float_not_refuted.

(* -2.0 < -1.0 < -0.5 folds to false although both comparisons come out true in the VM. *)
Theorem C27_float_chain_refuted : forall strict fe nt mi s, ieee fe ->
  exists x y z, f32_scaled x = -2 * 2 ^ 149 /\ f32_scaled y = -1 * 2 ^ 149 /\ 2 * f32_scaled z = -1 * 2 ^ 149 /\
    fold_chain true x [(BLt, y); (BLt, z)] = 0 /\ float_op BLt = Some 181 /\
    (exists s', does strict fe nt mi (const_operands x y ++ [35; 181]) s = Ok tt s' /\ pri s' = 1) /\
    (exists s', does strict fe nt mi (const_operands y z ++ [35; 181]) s = Ok tt s' /\ pri s' = 1).
Proof. exact float_chain. Qed.
Print Assumptions C27_float_chain_refuted.
Example some_ieee_host : ieee ieee_host.
Proof. exact ieee_exists. Qed.

(* The conditional operator: what is folded is right when it is folded to a value ... *)
Theorem C27_ternary_partial : forall c s t v, fold_ternary c s t = Folded v -> c = Some 0 /\ t = Some v.
Proof. exact ternary_ok. Qed.
Print Assumptions C27_ternary_partial.
(* ... but with a true condition and a second operand that is not constant the compiler uses a variable
   it never set, and with three constants it does not fold at all. *)
Theorem C27_ternary_refuted : fold_ternary (Some 1) None (Some 3) = Uninit /\ fold_ternary (Some 1) (Some 2) (Some 3) = NotConst.
Proof. exact (conj eq_refl eq_refl). Qed.
Print Assumptions C27_ternary_refuted.
