(* C58: functions return as they are declared to. *)
From Verif Require Import Base Gen_Model Gen_Spec Gen_Cases Stm_Model Stm_Spec Ret_Model Ret_Spec Ret_Cases.
From Verif Require Ret_Proofs.

(* A function declared with a type other than void, about which the compiler says nothing, returns a value however it runs: no
   return in it is without a value, and no run of it falls off its end.  Missing: implementations of forwards, below. *)
Theorem C58_value_partial : forall d body, accepted_s false body -> f_new d = true -> f_void d = false -> f_forward d = false ->
  ~ In NoValue (check_function d body) ->
  ~ In false (returns body) /\ forall sc f st o st', execs sc f body st = Fin o st' -> exists v, o = Ret v.
Proof. exact Ret_Proofs.declared_returned. Qed.
Print Assumptions C58_value_partial.
(* switch (x) { case 1: return 2; default: { while (true) { if (y) return 3; y++; } } } *)
Example C58_value_example : accepted_s false all_paths /\ check_function int_fun all_paths = [] /\
  match execs the_scope 20 all_paths the_store with Fin (Ret v) _ => v = 3 | _ => False end.
Proof. exact (conj (proj1 all_accepted) (conj (proj1 all_reports) all_paths_run)). Qed.

(* "public int f() { if (x) return 1; }" after "forward int f();": nothing is said, though f is declared to return a value and can
   fall off its end.  Without the forward it is reported. *)
Theorem C58_forward_refuted : must_return int_fun = true /\ accepted_s false falls_off /\ check_function forwarded falls_off = [] /\
  check_function int_fun falls_off = [NoValue] /\
  exists st st', execs the_scope 20 falls_off st = Fin Normal st'.
Proof. exact forward_silent. Qed.
Print Assumptions C58_forward_refuted.

(* A void function about which the compiler says nothing returns no value. *)
Theorem C58_void : forall d body, f_void d = true -> ~ In VoidReturnsValue (check_function d body) -> ~ In true (returns body).
Proof. exact Ret_Proofs.void_returned. Qed.
Print Assumptions C58_void.
Example C58_void_example : check_function void_fun nothing = [] /\ check_function void_fun falls_off = [VoidReturnsValue].
Proof. exact (conj (proj1 (proj2 all_reports)) (proj1 (proj2 (proj2 (proj2 all_reports))))). Qed.

(* "function uses both return and return <value>" is reported exactly when a return without a value comes before one with a value. *)
Theorem C58_mixed : forall d body, f_void d = false -> In Mixed (check_function d body) <-> void_then_value (returns body).
Proof. exact Ret_Proofs.mixed_reported. Qed.
Print Assumptions C58_mixed.
(* So a function that uses both is not always reported: "f() { if (x) return 1; return; }" is not, and "f() { if (x) return;
   return 1; }" is. *)
Theorem C58_mixed_refuted : In true (returns value_first) /\ In false (returns value_first) /\ check_function old_fun value_first = [] /\
  check_function old_fun void_first = [Mixed; Mixed].
Proof. exact mixed_silent. Qed.
Print Assumptions C58_mixed_refuted.

(* A statement reported as unreachable is never reached: in the block it stands in, what comes before it never ends
   normally, so that the block does what its beginning does. *)
Theorem C58_unreachable : forall d body pre s post, accepted_s false body -> In (Unreachable pre s post) (check_function d body) ->
  has_block (joined pre (SCons s post)) body /\
  forall sc f st, execs_l sc f (joined pre (SCons s post)) st = execs_l sc f pre st /\ (forall st', execs_l sc f pre st <> Fin Normal st').
Proof. exact Ret_Proofs.unreachable_is. Qed.
Print Assumptions C58_unreachable.
Example C58_unreachable_example : accepted_s false dead_code /\
  exists pre s post, check_function int_fun dead_code = [Unreachable pre s post] /\
    pre = SCons (block [SReturn (Some (Num 1))]) SNil /\ s = SExpr (Inc Y false true).
Proof. exact (conj (proj2 (proj2 (proj2 (proj2 all_accepted)))) dead_reports). Qed.
