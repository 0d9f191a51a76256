(* Functions for C58. *)
From Verif Require Import Base Gen_Model Gen_Spec Gen_Cases Stm_Model Stm_Spec Ret_Model Ret_Spec.
From Coq Require Import Lia.

Definition int_fun : fundecl := mkFun true false false.        (* int f() *)
Definition void_fun : fundecl := mkFun true true false.        (* void f() *)
Definition old_fun : fundecl := mkFun false false false.       (* f() *)
Definition forwarded : fundecl := mkFun true false true.       (* public int f(), after forward int f() *)
Definition block (l : list stmt) : stmt := SBlock (fold_right SCons SNil l).

(* switch (x) { case 1: return 2; default: { while (true) { if (y) return 3; y++; } } } *)
Definition all_paths : stmt := block [
  SSwitch (Rv X) (KCase [1] (SReturn (Some (Num 2)))
    (KDefault (block [SWhile (Num 1) (block [SIf (Rv Y) (SReturn (Some (Num 3))); SExpr (Inc Y false true)])])))].
(* if (x) return; y++; *)
Definition nothing : stmt := block [SIf (Rv X) (SReturn None); SExpr (Inc Y false true)].
(* if (x) return 1; *)
Definition falls_off : stmt := block [SIf (Rv X) (SReturn (Some (Num 1)))].
(* if (x) return; return 1;   and the other way round *)
Definition void_first : stmt := block [SIf (Rv X) (SReturn None); SReturn (Some (Num 1))].
Definition value_first : stmt := block [SIf (Rv X) (SReturn (Some (Num 1))); SReturn None].
(* { return 1; } y++; return 2; *)
Definition dead_code : stmt := block [block [SReturn (Some (Num 1))]; SExpr (Inc Y false true); SReturn (Some (Num 2))].

Ltac acc := cbn; unfold is_i32, two31; repeat split; try lia; try (repeat constructor; cbn; intuition (try lia; try discriminate)).
Lemma all_accepted : accepted_s false all_paths /\ accepted_s false nothing /\ accepted_s false falls_off /\
  accepted_s false value_first /\ accepted_s false dead_code.
Proof. acc. Qed.
Lemma all_reports : check_function int_fun all_paths = [] /\ check_function void_fun nothing = [] /\
  check_function int_fun falls_off = [NoValue] /\ check_function void_fun falls_off = [VoidReturnsValue] /\
  check_function int_fun nothing = [NoValue; NoValue] /\ check_function old_fun void_first = [Mixed; Mixed].
Proof. repeat split. Qed.
(* It returns 3 when x is 17. *)
Lemma all_paths_run : match execs the_scope 20 all_paths the_store with Fin (Ret v) _ => v = 3 | _ => False end.
Proof. vm_compute. reflexivity. Qed.
Lemma dead_reports : exists pre s post, check_function int_fun dead_code = [Unreachable pre s post] /\
  pre = SCons (block [SReturn (Some (Num 1))]) SNil /\ s = SExpr (Inc Y false true).
Proof. do 3 eexists. split; [reflexivity|]. split; reflexivity. Qed.

Lemma forward_silent : must_return int_fun = true /\ accepted_s false falls_off /\ check_function forwarded falls_off = [] /\
  check_function int_fun falls_off = [NoValue] /\
  exists st st', execs the_scope 20 falls_off st = Fin Normal st'.
Proof.
  split; [reflexivity|]. split; [apply all_accepted|]. split; [reflexivity|]. split; [reflexivity|].
  exists (fun _ => 0), (fun _ => 0). reflexivity.
Qed.
Lemma mixed_silent : In true (returns value_first) /\ In false (returns value_first) /\ check_function old_fun value_first = [] /\
  check_function old_fun void_first = [Mixed; Mixed].
Proof. cbn. tauto. Qed.
