(* Compiled loops take jumps the watchdog can redirect: C25. *)
From Verif Require Import Base Rtti_Model Rt_Model Array_Model Interp_Model Rt_Spec Mem_Spec Cfg_Model Cfg_Spec Dom_Model Dom_Spec X64_Model X64_Spec Jit_Model Jit_Spec.
From Verif Require Import Base_Proofs Rt_Proofs Cfg_Proofs Dom_Proofs Dom_Build X64_Ext X64_Step X64_Arith X64_Sim X64_Proofs Jit_Proofs.
From Coq Require Import ZifyBool Lia.
Ltac Zify.zify_post_hook ::= idtac.

Section Poll.
Variables (base : Z) (env : rt) (fp : fpu) (natives : Z -> option native) (junk : gpr -> Z).
Variables (code : list Z) (m : Z) (mi : meth) (pr : pre) (g : graph) (an : analysis).
Hypothesis CO : code_ok code.
Hypothesis CK : counts_ok code m.
Hypothesis AC : accepted code m.
Hypothesis BO : blocks_ok code m pr g.
Hypothesis AN : analysed m (g_succ g) an.
Notation rpo := (an_rpo an).
Notation JS := (jstep base env fp natives junk code mi g rpo).
Notation IM := (in_method code m pr g).
Notation n := (Z.of_nat (length code)).
Definition rank (j : jat) : Z := id_of rpo (j_block j) * (n + 1) + j_cell j.

Notation in_rpo := (Jit_Proofs.in_rpo code m pr g an BO AN).
Notation the_end := (Jit_Proofs.the_end code m pr g BO).
Notation succ_known := (Jit_Proofs.succ_known code m pr g BO).

Lemma cell_range c : reaches code m c -> 0 <= c < n.
Proof. intros R0. destruct (flow_ok code m CO c AC R0) as ((_ & IN) & _). apply IN. Qed.
Lemma into t x j : In t (g_succ g (j_block j)) -> reaches code m t -> IM (mkJat t t x).
Proof.
  intros IS R0. destruct (succ_known _ _ IS) as [KN FO]. constructor; cbn [j_block j_cell]; auto; [now right|]. rewrite <- FO at 2. constructor.
Qed.
Lemma rank_up t x j : IM j -> reaches code m t -> id_of rpo (j_block j) < id_of rpo t -> rank j < rank (mkJat t t x).
Proof.
  intros [K0 S0 R0] R1 L. unfold rank. cbn [j_block j_cell]. pose proof (cell_range _ R0). pose proof (cell_range _ R1).
  assert (H1 : id_of rpo t * (n + 1) >= (id_of rpo (j_block j) + 1) * (n + 1)) by nia. nia.
Qed.

Lemma forward j j' : IM j -> JS j = JAt false j' -> ~ slips code rpo j -> IM j' /\ rank j < rank j'.
Proof.
  intros M E NS. pose proof M as [MK MS MR]. destruct (the_end _ MK) as (e & EE & BE). unfold jstep in E. cbv zeta in E. rewrite EE in E.
  destruct (end_of code m (pr_targets pr) _ CO CK AC _ e _ MS MR BE) as [EJ EN].
  assert (DJ : joins (pr_targets pr) (j_block j) (j_cell j) \/ ~ joins (pr_targets pr) (j_block j) (j_cell j)).
  { unfold joins. destruct (in_dec Z.eq_dec (j_cell j) (pr_targets pr)); [|tauto]. destruct (Z.eq_dec (j_cell j) (j_block j)); tauto. }
  destruct DJ as [J|NJ].
  - destruct (EJ J) as [-> SS]. rewrite Z.eqb_refl, SS in E. assert (IS : In (j_cell j) (g_succ g (j_block j))) by (rewrite SS; now left).
    destruct (succ_known _ _ IS) as [KN FO].
    destruct (jump_goes base env fp natives junk rpo (j_block j) (as_once _ _ _ AN) (in_rpo _ MK) (j_cell j) (j_x j) (in_rpo _ (or_intror KN))) as (rec & RE & LT).
    rewrite RE in E. injection E as -> <-. split; [now apply (into _ _ j)|]. apply rank_up; auto.
  - destruct (EN NJ) as [NE SS]. destruct (Z.eqb_spec (j_cell j) e) as [X|_]; [congruence|]. unfold slips in NS.
    destruct (decode code (j_cell j)) as [i|] eqn:D; [|discriminate].
    assert (PL : plain i -> falls_through code (j_cell j) -> is_control (cell_at code (j_cell j)) = false ->
      match emit env natives mi i with
      | Some c1 => match xrun base env fp natives junk c1 0 (j_x j) with
                   | XOk x => JAt false (mkJat (j_block j) (j_cell j + insn_size code (j_cell j)) x) | XErr e x => JErr e x | XUB u => JUB u end
      | None => JUB UBAssert end = JAt false j' -> IM j' /\ rank j < rank j').
    { intros PL FT NC E'. destruct (emit env natives mi i); [|discriminate]. destruct (xrun _ _ _ _ _ _ _ _) as [x| |]; try discriminate.
      injection E' as <-. pose proof (size_pos code m CO CK AC _ MR). split.
      - constructor; cbn [j_block j_cell]; auto; [|now apply reach_fall]. now apply span_next.
      - unfold rank. cbn [j_block j_cell]. lia. }
    assert (PL' : plain i -> IM j' /\ rank j < rank j').
    { intros P0. apply PL; auto.
      - unfold falls_through. rewrite D. destruct i; try contradiction; exact Logic.I.
      - destruct (is_control (cell_at code (j_cell j))) eqn:IC; [|reflexivity]. exfalso. apply is_control_cases in IC. destruct IC as [IC|[IC|IC]].
        + destruct (decode_of_jump code _ IC) as [(_ & Y)|(z & Y)]; rewrite D in Y; injection Y as ->; exact P0.
        + apply decode_retn in IC. rewrite D in IC. injection IC as ->. exact P0.
        + assert (Y : decode code (j_cell j) = Some (SWITCH (cell_at code (j_cell j + 1)))) by (unfold decode; rewrite IC; reflexivity).
          rewrite D in Y. injection Y as ->. exact P0.
      - destruct i; try contradiction; exact E. }
    destruct i; try (apply PL'; exact Logic.I); try discriminate; try contradiction.
    + rewrite SS in E. assert (IS : In (o / 4) (g_succ g (j_block j))) by (rewrite SS; now left). destruct (succ_known _ _ IS) as [KN FO].
      destruct (jump_goes base env fp natives junk rpo (j_block j) (as_once _ _ _ AN) (in_rpo _ MK) (o / 4) (j_x j) (in_rpo _ (or_intror KN))) as (rec & RE & LT).
      rewrite RE in E. injection E as -> <-.
      assert (RT : reaches code m (o / 4)) by (apply (reach_jump code m (j_cell j)); [exact MR|]; unfold jumps_to; rewrite D; reflexivity).
      split; [now apply (into _ _ j)|]. apply rank_up; auto.
    + rewrite SS in E. assert (IF : In (j_cell j + 2) (g_succ g (j_block j))) by (rewrite SS; now left).
      assert (IT : In (o / 4) (g_succ g (j_block j))) by (rewrite SS; right; now left).
      assert (XF : exists f, xexec base env fp natives junk (jtest c) (j_x j) = XOk (setf (Some f) (j_x j))) by (destruct c; eexists; reflexivity).
      destruct XF as (f & XF).
      destruct (jcmp_goes base env fp natives junk rpo (j_block j) (as_once _ _ _ AN) (in_rpo _ MK) (j_cell j + 2) (o / 4) c (j_x j) f) as (rec & RE & LT);
        [apply in_rpo; right; apply (succ_known _ _ IF)|apply in_rpo; right; apply (succ_known _ _ IT)|exact XF|].
      rewrite RE in E. injection E as -> <-.
      assert (SZ : insn_size code (j_cell j) = 2) by (apply size_jump; apply (decode_jcmp _ _ _ _ D)).
      assert (RT : reaches code m (o / 4)) by (apply (reach_jump code m (j_cell j)); [exact MR|]; unfold jumps_to; rewrite D; reflexivity).
      assert (RF : reaches code m (j_cell j + 2)) by (rewrite <- SZ; apply reach_fall; [exact MR|]; unfold falls_through; rewrite D; exact Logic.I).
      specialize (LT eq_refl). destruct (cond (jcond c) f).
      * split; [now apply (into _ _ j)|]. apply rank_up; auto. destruct LT as [LT|LT]; [exact LT|discriminate].
      * split; [now apply (into _ _ j)|]. apply rank_up; auto. lia.
Qed.

Theorem recorded_soon k j j' : IM j -> quietly base env fp natives junk code mi g rpo k j j' ->
  Z.of_nat k < (Z.of_nat (length rpo) + 1) * (n + 1) /\ (k <> 0%nat -> (j_block j', j_cell j') <> (j_block j, j_cell j)).
Proof.
  intros M Q. assert (H : IM j' /\ rank j + Z.of_nat k <= rank j').
  { revert M. induction Q as [j|k j j1 j2 E NS _ IH]; intros M; [split; [exact M|lia]|]. destruct (forward j j1 M E NS) as [M1 L].
    destruct (IH M1) as [M2 L2]. split; [exact M2|lia]. }
  destruct H as [M' L]. pose proof M as [MK _ MR]. pose proof M' as [MK' _ MR']. pose proof (cell_range _ MR) as C1. pose proof (cell_range _ MR') as C2.
  unfold rank in L. pose proof (proj1 (id_pos rpo _) (in_rpo _ MK)) as P. pose proof (id_le rpo (j_block j')) as LE. split.
  - assert (id_of rpo (j_block j') * (n + 1) <= Z.of_nat (length rpo) * (n + 1)) by nia. nia.
  - intros NZ [= E1 E2]. rewrite E1, E2 in L. lia.
Qed.
End Poll.
