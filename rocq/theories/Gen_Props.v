(* C28: generated code computes what the source expression means. *)
From Verif Require Import Base Rt_Model Interp_Model Fold_Model Fold_Spec Gen_Model Gen_Spec Gen_Proofs Gen_Link Gen_Cases.
From Verif Require Label_Model Label_Spec.

(* [pre] and [post] are whatever else is emitted before and after the expression's code.  In a machine running the
   resulting code, whose memory holds the values [st] of the program's variables at the start of the expression's code:
   if the expression has a value, control arrives at the end of its code with the value in PRI, the variables as the
   expression leaves them, the stack top where it was, and nothing but the variables and the unused stack changed; if
   it divides by zero (or overflows a division, or indexes outside an array) the run stops with that error, the
   assignments made before being done. *)
Theorem C28_value : forall M sc obase glab ga h pre post e n st m q p a,
  built h M -> h = pre ++ gen glab ga Value e n ++ post -> 0 < cells_of post ->
  placed_data M sc obase (resolve h) glab ga -> (forall c, m_tmo M c = false) -> accepted e -> holds M sc obase st m ->
  hp (m_rt M) + 4 * depth e < q <= sp (m_rt M) ->
  yields M sc obase m (at_ M m q (cells_of pre) p a) q (cells_of pre + cells_of (gen glab ga Value e n)) (eval sc e st).
Proof. exact value_correct. Qed.
Print Assumptions C28_value.

(* The same for a condition: with [jot] control goes to label [t] if the expression is true and past the code if not;
   without, the other way round. *)
Theorem C28_test : forall M sc obase glab ga h pre post e n jot t kt st m q p a,
  built h M -> h = pre ++ gen glab ga (Test jot t) e n ++ post -> 0 < cells_of post ->
  placed_data M sc obase (resolve h) glab ga -> (forall c, m_tmo M c = false) -> accepted e -> holds M sc obase st m ->
  hp (m_rt M) + 4 * depth e < q <= sp (m_rt M) ->
  resolve h t = 4 * kt -> 0 <= kt < Z.of_nat (length (p_code (m_prog M))) ->
  let next := cells_of pre + cells_of (gen glab ga (Test jot t) e n) in
  branches M sc obase m (at_ M m q (cells_of pre) p a) q (if jot then kt else next) (if jot then next else kt) (eval sc e st).
Proof. exact test_correct. Qed.
Print Assumptions C28_test.

(* The code of an expression places only labels of its own, each once, and refers only to them, to globals and to the
   target it was given: it never spoils the emission it is part of. *)
Theorem C28_labels : forall glab ga md e n pre, Label_Spec.well_used pre ->
  (forall l, (n <= l < n + nl e)%nat -> Label_Spec.placed 0 pre l = None) ->
  4 * cells_of (pre ++ gen glab ga md e n) <= Label_Model.INT_MAX / 2 ->
  Label_Spec.well_used (pre ++ gen glab ga md e n) /\
  (forall l, In (Label_Spec.Ref l) (Label_Spec.items (gen glab ga md e n)) ->
     (exists g, l = glab g) \/ Label_Spec.placed 0 (gen glab ga md e n) l <> None \/ targets md l) /\
  (forall l, Label_Spec.placed 0 (gen glab ga md e n) l <> None -> (n <= l < n + nl e)%nat).
Proof. exact labels_ok. Qed.
Print Assumptions C28_labels.

(* The address a store uses for a global declared before the code is the address loads of it end up with. *)
Theorem C28_declared_before : forall pre post l v, Label_Spec.well_used (pre ++ post) -> Label_Spec.placed 0 pre l = Some v ->
  address_now pre l = v /\ resolve (pre ++ post) l = v.
Proof. exact declared_before. Qed.
Print Assumptions C28_declared_before.

(* int a, b, arr[3]; void f(int &r) { int x, y; ... x = arr[b += 2] < 7 <= x && y-- > 0 ? (r += x) / y : -1 ... }
   meets the hypotheses of all four. *)
Example hypotheses_met : let M := the_machine (code_of the_history) in
  built the_history M /\ 0 < cells_of [Emit [48]] /\
  placed_data M the_scope the_base (resolve the_history) the_lab (fun g => address_now before_code (the_lab g)) /\
  (forall c, m_tmo M c = false) /\ accepted the_expr /\ holds M the_scope the_base the_store the_mem /\
  hp (m_rt M) + 4 * depth the_expr < 16384 <= sp (m_rt M).
Proof. exact the_hypotheses. Qed.
Example the_value_is_9 : let r := eval the_scope the_expr the_store in
  value_in r = Some 9 /\ cell_in r (3%nat, 0) = Some 9 /\ cell_in r (2%nat, 1) = Some 37 /\ cell_in r (1%nat, 0) = Some 2 /\ cell_in r (4%nat, 0) = Some 4.
Proof. exact the_value. Qed.

(* A function may assign a global declared after it, but the store is then emitted before the global has an address:
   without assertions it goes to wherever the label's list of pending uses points. Here b = 5 assigns a. *)
Theorem C28_later_global_refuted : let M := the_machine (code_of later_history) in
  exists m' a', built later_history M /\
    placed_data M the_scope the_base (resolve later_history) the_lab (fun g => resolve later_history (the_lab g)) /\
    holds M the_scope the_base the_store the_mem /\ accepted (Asg B (Num 5)) /\
    eval the_scope (Asg B (Num 5)) the_store = Val 5 (update the_store (1%nat, 0) 5) /\
    gets M (at_ M the_mem 16384 0 0 0) (at_ M m' 16384 (cells_of later_code) 5 a') /\
    load32 m' (adr the_base (0%nat, 0)) = 5 /\ load32 m' (adr the_base (1%nat, 0)) = 0.
Proof. exact later_global. Qed.
Print Assumptions C28_later_global_refuted.

(* For a float f that is -0.0, !f is true as a value, but if (!f) does not take the branch (label 3 is at cell 5, the
   code goes on at cell 4). *)
Theorem C28_float_not_refuted : let M := the_machine (code_of not_history) in
  load32 minus_zero_mem (adr the_base (3%nat, 0)) = - 2 ^ 31 /\ f32_scaled (- 2 ^ 31) = 0 /\ ieee (m_fe M) /\
  (forall strict nt mi s, exists s', does strict (m_fe M) nt mi (const_pri (- 2 ^ 31) ++ un_code true UNot) s = Ok tt s' /\ pri s' = 1) /\
  resolve not_history 3 = 4 * 5 /\
  gets M (at_ M minus_zero_mem 16384 0 0 0) (at_ M minus_zero_mem 16384 4 (- 2 ^ 31) 0).
Proof. exact float_not_test. Qed.
Print Assumptions C28_float_not_refuted.
