(* No single instruction moves the frame. *)
From Verif Require Import Base Rt_Model Array_Model Interp_Model Rt_Spec Mem_Spec X64_Model X64_Spec.
From Verif Require Import Base_Proofs X64_Copy.
From Coq Require Import ZifyBool Lia.
Ltac Zify.zify_post_hook ::= idtac.

Definition kf {A} (m : RM A) : Prop := forall s a s', m s = Ok a s' -> frm s' = frm s.
Lemma kf_st A (m : RM A) : st frm m -> kf m. Proof. exact (fun H => H). Qed.
Lemma kf_bind A B (m : RM A) (k : A -> RM B) : kf m -> (forall a, kf (k a)) -> kf (bind m k).
Proof. exact (st_bind frm A B m k). Qed.
Lemma kf_put_sp v : kf (put (set_sp v)). Proof. intros s a s' E. unfold put in E. injection E as _ <-. reflexivity. Qed.
Ltac skf := repeat first
  [ (apply kf_st; first [ apply st_ret | apply st_fail | apply st_undef | apply st_get | apply st_throw | apply st_assert | apply st_rd32 | apply st_rd64 | apply st_bad | apply st_local
     | (apply st_wr32; reflexivity) | (apply st_wr64; reflexivity) | (apply st_wr16; reflexivity) | (apply st_wr8; reflexivity) | (apply st_clear; reflexivity)
     | (apply st_move; reflexivity) | (apply st_slot; reflexivity) | apply st_put_hp; reflexivity | apply st_put_scope; reflexivity
     | (apply st_acquire; reflexivity) | apply st_getCell | (apply st_setCell; reflexivity) | apply st_getFrame | (apply st_setFrame; reflexivity)
     | (apply st_fill; reflexivity) | (apply st_init; reflexivity) | (apply st_heapAlloc; reflexivity) | (apply st_enter; reflexivity) | (apply st_leave; reflexivity)
     | (apply st_pushTracker; reflexivity) | (apply st_popTracker; reflexivity) | (apply st_generate; reflexivity) ])
  | apply kf_put_sp | match goal with |- kf (if ?b then _ else _) => destruct b end
  | (apply kf_bind; [|intros ?]) ].
Lemma kf_push v : kf (pushStack v). Proof. unfold pushStack. skf. Qed.
Lemma kf_pop : kf popStack. Proof. unfold popStack. skf. Qed.
Lemma kf_add v : kf (addStack v). Proof. unfold addStack. skf. Qed.
Lemma kf_pushlist l : kf (push_list l). Proof. induction l; cbn [push_list]; [skf|]. apply kf_bind; [apply kf_push|auto]. Qed.
Lemma kf_pushcells l : kf (push_cells l).
Proof. induction l; cbn [push_cells]; [skf|]. apply kf_bind; [skf|intros]. apply kf_bind; [apply kf_push|auto]. Qed.
Lemma kf_popn n : kf (pop_n n). Proof. induction n; cbn [pop_n]; [skf|]. apply kf_bind; [apply kf_pop|auto]. Qed.

Section Exec.
Variables (strict : bool) (fe : fenv) (nat_ : Z -> option native) (mi : meth).
Hypothesis NAT : natives_ok nat_.
Lemma kf_pushframe l : kf (push_frame mi l).
Proof. induction l; cbn [push_frame]; [skf|]. apply kf_bind; [skf|intros]. apply kf_bind; [apply kf_push|auto]. Qed.
Lemma kf_pushadr l : kf (push_adr mi l).
Proof. induction l; cbn [push_adr]; [skf|]. apply kf_bind; [skf|intros]. apply kf_bind; [apply kf_push|auto]. Qed.

Definition kfi {A} (m : IM A) : Prop := forall s a s', m s = Ok a s' -> frm (rts s') = frm (rts s).
Lemma kfi_bind A B (m : IM A) (k : A -> IM B) : kfi m -> (forall a, kfi (k a)) -> kfi (bind m k).
Proof. intros M K s b s' E. unfold bind in E. destruct (m s) as [a s1| |] eqn:E1; try discriminate. apply M in E1. apply K in E. congruence. Qed.
Lemma kfi_ret A (a : A) : kfi (ret a). Proof. intros s b s' E. unfold ret in E. congruence. Qed.
Lemma kfi_fail A e : kfi (@fail ist A e). Proof. discriminate. Qed.
Lemma kfi_undef A e : kfi (@undef ist A e). Proof. discriminate. Qed.
Lemma kfi_if A (b : bool) (m1 m2 : IM A) : kfi m1 -> kfi m2 -> kfi (if b then m1 else m2). Proof. now destruct b. Qed.
Lemma kfi_lift A (m : RM A) : kf m -> kfi (lift m).
Proof. intros M s b s' E. unfold lift in E. destruct (m (rts s)) as [v r| |] eqn:E1; try discriminate. injection E as _ <-. cbn [rts]. exact (M _ _ _ E1). Qed.
Lemma kfi_getr r : kfi (getr r). Proof. intros s b s' E. unfold getr in E. congruence. Qed.
Lemma kfi_setr r v : kfi (Interp_Model.setr r v).
Proof. intros s b s' E. unfold Interp_Model.setr in E. destruct r; injection E as _ <-; reflexivity. Qed.
Lemma kfi_sarith z : kfi (sarith strict z). Proof. unfold sarith. apply kfi_if; [apply kfi_ret|]. destruct strict; [apply kfi_undef|apply kfi_ret]. Qed.
Lemma kfi_sarith64 z : kfi (sarith64 strict z). Proof. unfold sarith64. apply kfi_if; [apply kfi_ret|]. destruct strict; [apply kfi_undef|apply kfi_ret]. Qed.
Lemma kfi_native n : kfi (invokeNative nat_ n).
Proof.
  unfold invokeNative. destruct (nat_ n) as [nt|] eqn:E; [|apply kfi_undef]. destruct (n_fn nt) as [f|] eqn:F; [|apply kfi_fail].
  intros s b s' H. destruct (f (rts s)) as [v r| |] eqn:F1; try discriminate.
  destruct (na_result _ (NAT n nt f E F) _ _ _ F1) as (_ & V & _). injection H as _ <-. exact V.
Qed.
Ltac ski := repeat first
  [ apply kfi_ret | apply kfi_fail | apply kfi_undef | apply kfi_getr | apply kfi_setr | apply kfi_sarith | apply kfi_sarith64 | apply kfi_native | apply kfi_if
  | (apply kfi_lift; first [ apply kf_push | apply kf_pop | apply kf_add | apply kf_pushlist | apply kf_pushcells | apply kf_pushframe | apply kf_pushadr | apply kf_popn
      | (skf; first [ apply kf_push | apply kf_popn ]) | (skf; fail) ])
  | (apply kfi_bind; [|intros ?]) ].
Lemma exec_frm i : kfi (exec strict fe nat_ mi i).
Proof.
  destruct i; cbn [exec]; unfold shl32, shr32, sshr32, check_div, Interp_Model.fill, acquireInt64Addr, so; try (ski; fail).
  - destruct r; ski.
  - destruct op; ski.
  - destruct op; cbn [eval_bin64]; unfold check_div64; ski.
  - (* SYSREQ_N *) destruct (nat_ n) as [nt|]; [|apply kfi_undef].
    assert (H : kfi (lift (pushStack k);;; invokeNative nat_ n;;; lift (pop_n (Z.to_nat (u32 (k + 1)))))) by ski.
    destruct (n_fn nt); [|exact H]. destruct (n_repl nt) as [[]|]; cbn [exec_fstack]; try exact H; ski.
Qed.
End Exec.
