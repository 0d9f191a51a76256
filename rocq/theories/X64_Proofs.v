(* Compiled code follows the interpreter: C46, for every instruction and for sequences of them. *)
From Verif Require Import Base Rtti_Model Rt_Model Array_Model Interp_Model Rt_Spec Mem_Spec X64_Model X64_Spec.
From Verif Require Import Base_Proofs Rt_Proofs Exec_Safe Run_Safe X64_Ext X64_Step X64_Frm X64_Sim.
From Coq Require Import ZifyBool Lia.
Ltac Zify.zify_post_hook ::= idtac.

Lemma same_rt_set m r : (forall a, m a = mem r a) -> same_rt r (set_mem m r).
Proof. intros H. split; [constructor; reflexivity|]. split; [repeat split|exact H]. Qed.
Lemma holds_same base kp ka s s2 x : same_rt (rts s) (rts s2) -> pri s2 = pri s -> alt s2 = alt s -> holds base kp ka s2 x -> holds base kp ka s x.
Proof.
  intros [[] [(H1 & H2 & H3 & H4) M]] P A []. constructor; rewrite <- ?P, <- ?A, <- ?H1, <- ?H2, <- ?H3, <- ?H4; auto. intros b. now rewrite <- M.
Qed.
Lemma running_same s m : (forall a, m a = mem (rts s) a) -> running s -> running (mkIst (set_mem m (rts s)) (pri s) (alt s)).
Proof.
  intros M [[L P] F A B C]. constructor; auto.
  - split; [destruct L; constructor; auto|destruct P; constructor; auto].
  - intros b. cbn [rts mem set_mem]. rewrite M. apply C.
Qed.
Lemma flow_some i kp ka k' : flow i (kp, ka) = Some k' -> k' = leaves i kp ka.
Proof. unfold flow. destruct (uses i) as [u v]. destruct (_ && _); [|discriminate]. intros [= <-]. reflexivity. Qed.

Section Sim.
Variables (base : Z) (env : rt) (fp : fpu) (nat_ : Z -> option native) (junk : gpr -> Z) (fe : fenv).
Hypothesis US : user_space base.
Hypothesis NAT : natives_ok nat_.
Hypothesis FA : floats_agree fe fp.
Hypothesis FC : float_cells fe.

Theorem one_step mi s s' x kp ka i c k' : slot_table_ok mi -> same_plugin env (rts s) -> running s -> holds base kp ka s x ->
  emit env nat_ mi i = Some c -> flow i (kp, ka) = Some k' -> Forall is_i32 (operands i) -> agrees base s i ->
  exec false fe nat_ mi i s = Ok tt s' ->
  exists x', xrun base env fp nat_ junk c 0 x = XOk x' /\ holds base (fst k') (snd k') s' x'.
Proof.
  intros ST SP RUN HO EM FL OPS AG E. destruct s as [r p a].
  assert (M : forall b, xm x b = mem r b) by exact (ho_mem _ _ _ _ _ HO).
  set (s2 := mkIst (set_mem (xm x) r) p a).
  assert (RL : reli (mkIst r p a) s2) by (split; [split; [now apply same_rt_set|exact (rn_bytes _ RUN)]|split; reflexivity]).
  pose proof (exec_respi false fe nat_ mi NAT i _ _ RL) as X. rewrite E in X.
  destruct (exec false fe nat_ mi i s2) as [[] s2'| |] eqn:E2; cbn in X; try contradiction. destruct X as (_ & [R _] & P & A).
  assert (RUN2 : running s2) by exact (running_same (mkIst r p a) (xm x) M RUN).
  assert (HO2 : holds base kp ka s2 x) by (destruct HO; constructor; auto).
  assert (AG2 : agrees base s2 i) by (destruct i; exact AG).
  assert (SP2 : same_plugin env (set_mem (xm x) r)) by (destruct SP; constructor; assumption).
  destruct (sim_exec base env fp nat_ junk mi fe US NAT FA ST (set_mem (xm x) r) p a x kp ka SP2 RUN2 HO2 eq_refl i c k' s2' EM FL OPS AG2 E2) as (x' & X & H).
  exists x'. split; [exact X|]. now apply (holds_same base _ _ s' s2').
Qed.

Lemma good_nat : good_natives nat_.
Proof. intros n nt f N F. exact (na_good _ (NAT n nt f N F)). Qed.
Lemma const_operands i : Forall is_i32 (operands i) -> const_ok i.
Proof. destruct i; try exact (fun _ => Logic.I). exact (one_op _ _). Qed.

Theorem keeps_running mi s s' i : running s -> operand_ok nat_ mi s i -> Forall is_i32 (operands i) -> exec false fe nat_ mi i s = Ok tt s' ->
  running s' /\ same_plugin (rts s) (rts s').
Proof.
  intros RUN OK OPS E. destruct RUN as [B F P A BY].
  pose proof (exec_safe fe nat_ mi good_nat i s B P A OK) as SA. unfold safe_at, wp in SA. rewrite E in SA.
  destruct SA as [RR B']. assert (SP : same_plugin (rts s) (rts s')) by exact (proj1 RR).
  split; [|exact SP].
  assert (RG : regs32 s').
  { apply (exec_ranged fe nat_ mi i s s'); auto; [|now apply const_operands|split; assumption].
    intros n nt f s0 v s1 N G V. exact (proj1 (na_result _ (NAT n nt f N G) _ _ _ V)). }
  assert (FR : frm (rts s') = frm (rts s)) by exact (exec_frm false fe nat_ mi NAT i _ _ _ E).
  assert (RL : reli s s). { split; [split; [|exact BY]|split; reflexivity]. split; [constructor; reflexivity|]. split; [repeat split|reflexivity]. }
  pose proof (exec_respi false fe nat_ mi NAT i _ _ RL) as X. rewrite E in X. destruct X as (_ & [_ BY'] & _).
  constructor; [exact B'| |exact (proj1 RG)|exact (proj2 RG)|exact BY'].
  rewrite FR, (sp_size _ _ SP). exact F.
Qed.

Lemma same_plugin_trans a b c : same_plugin a b -> same_plugin b c -> same_plugin a c.
Proof. intros [] []. constructor; congruence. Qed.

Theorem many_steps mi : slot_table_ok mi -> forall l s s' x kp ka c k', same_plugin env (rts s) -> running s -> holds base kp ka s x ->
  emit_all env nat_ mi l = Some c -> flow_all l (kp, ka) = Some k' -> all_agree base fe nat_ mi l s -> exec_all false fe nat_ mi l s = Ok tt s' ->
  running s' /\ exists x', xrun base env fp nat_ junk c 0 x = XOk x' /\ holds base (fst k') (snd k') s' x'.
Proof.
  intros ST. induction l as [|i l IH]; intros s s' x kp ka c k' SP RUN HO EM FL AG E.
  - cbn in EM, FL, E. unfold ret in E. assert (s' = s) as -> by congruence. injection EM as <-. injection FL as <-. split; [exact RUN|].
    exists x. split; [reflexivity|exact HO].
  - cbn [emit_all flow_all all_agree] in EM, FL, AG. destruct AG as (OPS & AG & OK & REST).
    destruct (emit env nat_ mi i) as [c1|] eqn:EM1; [|discriminate]. destruct (emit_all env nat_ mi l) as [c2|] eqn:EM2; [|discriminate]. injection EM as <-.
    destruct (flow i (kp, ka)) as [[kp1 ka1]|] eqn:FL1; [|discriminate].
    change (bind (exec false fe nat_ mi i) (fun _ => exec_all false fe nat_ mi l) s = Ok tt s') in E. unfold bind in E.
    destruct (exec false fe nat_ mi i s) as [[] s1| |] eqn:E1; try discriminate.
    destruct (one_step mi s s1 x kp ka i c1 _ ST SP RUN HO EM1 FL1 OPS AG E1) as (x1 & X1 & H1).
    destruct (keeps_running mi s s1 i RUN OK OPS E1) as [RUN1 SP1].
    destruct (IH s1 s' x1 kp1 ka1 c2 k' (same_plugin_trans _ _ _ SP SP1) RUN1 H1 eq_refl FL (REST _ eq_refl) E) as (RUN' & x' & X' & H').
    split; [exact RUN'|]. exact (goes_app base env fp nat_ junk c1 c2 0 x (fun x0 => holds base (fst k') (snd k') s' x0)
      (ex_intro _ x1 (conj X1 (ex_intro _ x' (conj X' H'))))).
Qed.
End Sim.
