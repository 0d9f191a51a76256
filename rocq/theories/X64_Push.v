(* Pushing several cells: the emitted code stores them below the stack register and moves it once. *)
From Verif Require Import Base Rt_Model Array_Model Interp_Model Rt_Spec Mem_Spec X64_Model X64_Spec.
From Verif Require Import Base_Proofs Rt_Proofs Mem_Proofs X64_Step X64_Arith.
From Coq Require Import ZifyBool Lia.
Ltac Zify.zify_post_hook ::= idtac.

Ltac nx := cbn [xr xf x0 x1 xc xm xpush exn setr setf setx setc setm setp sete gpr_eqb cfield_eqb getx mask reg_of
                mem mem_size data_size hp sp stp frm hp_scope heap_scopes direct_arrays set_mem set_hp set_sp set_frm set_hp_scope
                rts pri alt].
Ltac zl := unfold is_i32, is_u32, two31, two32, two64, user_space in *; lia.
Ltac xinv H := let v := fresh "v" in let s := fresh "s" in let H1 := fresh "E" in
  apply bind_inv in H; destruct H as (v & s & H1 & H).

(* A list of pushes: the stores first, the stack register last. *)
Section Pushes.
Variables (base : Z) (env : rt) (fp : fpu) (nat_ : Z -> option native) (junk : gpr -> Z) (mi : meth).
Hypothesis US : user_space base.
Notation G := (goes base env fp nat_ junk).
Definition moved (x x' : xst) : Prop :=
  (forall q, q <> RCX -> xr x' q = xr x q) /\ xc x' = xc x /\ exn x' = exn x.
Lemma moved_trans x y z : moved x y -> moved y z -> moved x z.
Proof. intros (A & B & C) (A' & B' & C'). split; [intros; rewrite A'; auto|]. split; congruence. Qed.
Lemma in_bounds_push r v : in_bounds r -> hp r + 4 < sp r -> in_bounds (set_mem (store32 (mem r) (sp r - 4) v) (set_sp (sp r - 4) r)).
Proof. intros [[] []] H. split; constructor; wsimp; auto. lia. Qed.

Lemma pushes_c_go l : forall k r x r1, Forall is_i32 l -> in_bounds r -> mem_size env = mem_size r ->
  xr x R14 = base + (sp r + 4 * (k - 1)) -> 0 <= k -> sp r + 4 * k < 2 ^ 39 -> xm x = mem r -> push_list l r = Ok tt r1 ->
  G (pushes_c k l) 0%nat x (fun x1 => moved x x1 /\ xm x1 = mem r1 /\ exists m, r1 = set_mem m (set_sp (sp r - 4 * Z.of_nat (length l)) r) /\ 0 <= sp r1).
Proof.
  induction l as [|v l IH]; intros k r x r1 FL IB MSZ E14 K0 K1 EMM E.
  - injection E as <-. apply goes_nil. split; [repeat split|]. split; [exact EMM|]. exists (mem r). split.
    + destruct r; unfold set_mem, set_sp; cbn. f_equal. lia.
    + destruct IB as [_ []]. lia.
  - cbn [push_list] in E. xinv E. apply push_inv in E0; [|exact IB]. destruct E0 as (S & ->). cbn [pushes_c].
    pose proof (in_bounds_push r v IB S) as IB'. destruct IB as [LL PP]. destruct LL, PP.
    eapply (go_storei base env fp nat_ junk _ _ (sp r - 4)).
    + exact Logic.I.
    + rewrite (ea_at base US _ _ _ (sp r + 4 * (k - 1))); [lia|exact E14|zl].
    + zl.
    + rewrite MSZ. zl.
    + rewrite wrap32_id by (inversion FL; assumption). rewrite EMM.
      eapply goes_weak; [|apply (IH (k + 1) (set_mem (store32 (mem r) (sp r - 4) v) (set_sp (sp r - 4) r)) _ r1); auto].
      * intros x1 (M & X1 & m & R1 & R2). split; [|split; [exact X1|]].
        -- eapply moved_trans; [|exact M]. repeat split.
        -- exists m. split; [|exact R2]. rewrite R1. unfold set_mem, set_sp. cbn [mem mem_size data_size hp sp stp frm hp_scope heap_scopes direct_arrays length].
           f_equal. lia.
      * inversion FL; assumption.
      * nx. rewrite E14. lia.
      * lia.
      * nx. lia.
Qed.

(* The same with a value computed into rcx before each store. *)
Fixpoint pushm (m : Z -> RM Z) (l : list Z) : RM unit :=
  match l with [] => ret tt | o :: l' => v <- m o;; pushStack v;;; pushm m l' end.
Variables (m : Z -> RM Z) (f : Z -> list xi) (ok : Z -> Prop) (F RB RF : Z).
Hypothesis ONE : forall o r x v r', ok o -> in_bounds r -> frm r = F -> mem_size r = mem_size env -> 0 <= frm r < mem_size r ->
  xr x RBX = RB -> xr x R15 = RF -> xm x = mem r -> m o r = Ok v r' -> r' = r /\ is_i32 v /\ G (f o) 0%nat x (fun x1 => alike x x1 /\ wrap32 (xr x1 RCX) = v).
Lemma pushes_go l : forall k r x r1, Forall ok l -> in_bounds r -> mem_size env = mem_size r -> frm r = F -> 0 <= frm r < mem_size r ->
  xr x RBX = RB -> xr x R15 = RF ->
  xr x R14 = base + (sp r + 4 * (k - 1)) -> 0 <= k -> sp r + 4 * k < 2 ^ 39 -> xm x = mem r -> pushm m l r = Ok tt r1 ->
  G (pushes k f l) 0%nat x (fun x1 => moved x x1 /\ xm x1 = mem r1 /\ exists m, r1 = set_mem m (set_sp (sp r - 4 * Z.of_nat (length l)) r) /\ 0 <= sp r1).
Proof.
  induction l as [|o l IH]; intros k r x r1 FL IB MSZ EFM FR EB E15 E14 K0 K1 EMM E.
  - injection E as <-. apply goes_nil. split; [repeat split|]. split; [exact EMM|]. exists (mem r). split.
    + destruct r; unfold set_mem, set_sp; cbn. f_equal. lia.
    + destruct IB as [_ []]. lia.
  - cbn [pushm] in E. xinv E.
    destruct (ONE o r x v s (Forall_inv FL) IB EFM (eq_sym MSZ) FR EB E15 EMM E0) as (-> & VI & GO).
    xinv E. apply push_inv in E1; [|exact IB]. destruct E1 as (S & ->). cbn [pushes].
    pose proof (in_bounds_push r v IB S) as IB'. destruct IB as [LL PP]. destruct LL, PP.
    apply goes_app. eapply goes_weak; [|exact GO]. intros y (AL & VY).
    assert (Y14 : xr y R14 = xr x R14) by (apply AL; discriminate). assert (YB : xr y RBX = xr x RBX) by (apply AL; discriminate).
    assert (Y15 : xr y R15 = xr x R15) by (apply AL; discriminate). assert (YM : xm y = xm x) by apply AL.
    eapply (go_store base env fp nat_ junk _ _ (sp r - 4)).
    + exact Logic.I.
    + rewrite (ea_at base US _ _ _ (sp r + 4 * (k - 1))); [lia|congruence|zl].
    + zl.
    + rewrite MSZ. zl.
    + rewrite VY, YM, EMM.
      eapply goes_weak; [|apply (IH (k + 1) (set_mem (store32 (mem r) (sp r - 4) v) (set_sp (sp r - 4) r)) _ r1); auto].
      * intros x1 (M & X1 & mm & R1 & R2). split; [|split; [exact X1|]].
        -- eapply moved_trans; [|exact M]. destruct AL as (AL1 & AL2 & _ & _ & AL3). split; [|split]; nx; auto.
        -- exists mm. split; [|exact R2]. rewrite R1. unfold set_mem, set_sp. cbn [mem mem_size data_size hp sp stp frm hp_scope heap_scopes direct_arrays length].
           f_equal. lia.
      * inversion FL; assumption.
      * nx. congruence.
      * nx. congruence.
      * nx. rewrite Y14, E14. lia.
      * lia.
      * nx. lia.
Qed.
End Pushes.
