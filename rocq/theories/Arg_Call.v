(* A call from its first argument to its result: the code of the call, of the called function's body and of its return, together. *)
From Coq Require Import ZifyBool Lia.
From Verif Require Import Base Base_Proofs Rt_Model Rt_Spec Rt_Proofs Interp_Model Gen_Model Gen_Spec Gen_Steps Gen_Proofs Gen_Link Stm_Model Stm_Spec Stm_Link Arg_Emit Arg_EmitSpec Arg_EmitProofs.
Ltac Zify.zify_post_hook ::= idtac.

(* While the function runs the machine is the one its own code was shown right for. *)
Lemma called_rt M callee q vs r : called M callee q vs r -> r = set_mem (mem r) (callee_rt (m_rt M) callee q (length vs)).
Proof.
  intros [C1 C2 C3 C4 _ [P1 P2 P3 P4 P5] C6 _ _ _ C7 C8]. unfold callee_rt, set_mem, set_sp, set_frm, set_hp.
  destruct r as [me ms ds h s t f hs hsc da]. cbn [mem mem_size data_size hp sp stp frm hp_scope heap_scopes direct_arrays] in *.
  assert (f = q - 4 * Z.of_nat (length vs) - 12) as -> by lia. subst. reflexivity.
Qed.
Lemma placed_called M callee q n m cs sc' obase' wh glab ga : placed_data (callee_machine M callee q n) sc' obase' wh glab ga ->
  placed_data (mkMachine (set_mem m (callee_rt (m_rt M) callee q n)) callee cs (m_prog M) (m_fe M) (m_tmo M)) sc' obase' wh glab ga.
Proof. intros [[] [] ? ? ? ? ? ? ? ? ? ?]. constructor; try assumption; constructor; assumption. Qed.
Lemma vrun_prefix M n k c c' : vrun M (n + k) c = inr c' -> exists c1, vrun M n c = inr c1.
Proof.
  unfold vrun. revert c. induction n as [|n IH]; intros c; cbn [run Nat.add]; [eauto|].
  destruct (step _ _ _ _ c); try discriminate. apply IH.
Qed.

Lemma call_runs M sc obase glab ga h pre post es n f callee st m q p a before after ga' body nb sc' obase' F :
  built h M -> h = pre ++ call_code glab ga es n f ++ post -> 0 < cells_of post ->
  placed_data M sc obase (resolve h) glab ga -> (forall c, m_tmo M c = false) -> (forall e, In e es -> accepted_arg e) ->
  holds M sc obase st m -> hp (m_rt M) + 4 * push_depth es < q <= sp (m_rt M) -> data_size (m_rt M) <= hp (m_rt M) ->
  h = before ++ gfun glab ga' body nb ++ after -> resolve h f = 4 * cells_of before ->
  p_validate (m_prog M) (4 * cells_of before) = inl callee -> typed callee = true ->
  StackSizeForLocalSlots callee <= 0 ->
  hp (m_rt M) + 4 * Z.of_nat (length es) + 80 - StackSizeForLocalSlots callee <= q ->
  let M' := callee_machine M callee q (length es) in
  placed_data M' sc' obase' (resolve h) glab ga' -> accepted_s false body -> hp (m_rt M') + 4 * sdepth body < sp (m_rt M') ->
  match eval_args sc es st with
  | Val vs st' => own_view M callee q (map (word obase) vs) sc' obase' ->
      exists st0, call_starts sc obase st' sc' obase' q (map (word obase) vs) st0 /\
      match execs_body sc' F body st0 with
      | Fin (Ret v) st1 => exists m' a', is_i32 v /\
          gets M (at_ M m q (cells_of pre) p a) (at_ M m' q (cells_of pre + cells_of (call_code glab ga es n f)) v a') /\
          call_ends sc obase st' sc' obase' st1 m' /\ call_keeps M sc obase sc' obase' q m m'
      | Fin _ _ => False
      | SErr e st1 => exists k r, vrun M k (at_ M m q (cells_of pre) p a) = inl (Stop e r) /\
          forall x, live sc' x -> load32 (mem r) (adr obase' x) = st1 x
      | SUnspec => True
      | SFuel => exists c', vrun M F (at_ M m q (cells_of pre) p a) = inr c'
      end
  | Err e st' => stops M sc obase (at_ M m q (cells_of pre) p a) e st'
  | Unspecified => True
  end.
Proof.
  intros B E P PD TMO A H Q D E' T V Ty S0 Room M' PD' AB Q'.
  assert (KF : 0 <= cells_of before < Z.of_nat (length (p_code (m_prog M)))).
  { destruct (built_laid h M _ _ _ B E') as (_ & K & Sz & N & _). assert (0 < cells_of (gfun glab ga' body nb)).
    { unfold gfun, cells_of, Label_Spec.items. cbn [app flat_map]. rewrite app_length. cbn. lia. }
    unfold cells_of in *. lia. }
  pose proof (call_correct M sc obase glab ga h pre post es n f (cells_of before) callee st m q p a B E P PD TMO A H Q T KF V S0 Room) as X.
  destruct (eval_args sc es st) as [vs st'|e st'|] eqn:Ev; [|exact X|exact Logic.I]. intros [O1 O2 O3].
  destruct X as (r & p' & a' & G1 & C & H1 & K1).
  assert (Lv : length vs = length es).
  { clear - Ev. revert st st' vs Ev. induction es as [|x es IH]; intros st st' vs; cbn [eval_args].
    - now intros [= <- _].
    - destruct (eval_args sc es st) as [us s1| |] eqn:E1; cbn; try discriminate. destruct (eval_arg sc x s1) as [u s2| |]; cbn; try discriminate.
      intros [= <- _]. cbn [length]. now rewrite (IH _ _ _ E1). }
  assert (Lw : length (map (word obase) vs) = length es) by (rewrite map_length; exact Lv).
  set (ws := map (word obase) vs) in *. clearbody ws.
  pose proof (called_rt M callee q ws r C) as ER. rewrite Lw in ER.
  set (cs := mkAct (m_meth M) (cells_of pre + cells_of (call_code glab ga es n f)) p' a' :: m_callers M) in *.
  set (N := mkMachine r callee cs (m_prog M) (m_fe M) (m_tmo M)).
  assert (PN : placed_data N sc' obase' (resolve h) glab ga').
  { unfold N. rewrite ER. apply placed_called. exact PD'. }
  pose proof C as [C1 C2 C3 C4 C5 C6 C7 C8 C9 C10 C11 C12]. rewrite Lw in C4.
  pose proof (lay_bounds M sc obase _ glab ga PD) as LB. pose proof (pd_inside _ _ _ _ _ _ PD) as PI.
  exists (fun x => load32 (mem r) (adr obase' x)). split.
  { split.
    - intros x y Lx Ly Ex. rewrite Ex. now apply H1.
    - intros x i v Lx Nv Ex. rewrite Ex. rewrite Lw, <- (C3 i v Nv). f_equal. lia. }
  assert (HN : holds N sc' obase' (fun x => load32 (mem r) (adr obase' x)) (mem r)).
  { split; [reflexivity|]. intros s x Px. destruct (O3 s x Px) as (i & -> & Nv). rewrite <- (C3 i x Nv). f_equal.
    assert (Il : (i < length es)%nat) by (rewrite <- Lw; apply nth_error_Some; congruence).
    unfold slot_adr, StackOffset. cbn [m_rt m_meth N]. rewrite Ty. cbn [negb].
    replace (- (Z.of_nat i + 1) <? 0) with true by lia.
    replace ((- - (Z.of_nat i + 1) - 1 + 3) * 4) with (12 + 4 * Z.of_nat i) by lia.
    unfold two31 in LB. destruct PI.
    rewrite (wrap32_id (12 + _)) by (unfold is_i32, two31; lia). rewrite wrap32_id by (unfold is_i32, two31; lia). lia. }
  assert (QN : hp (m_rt N) + 4 * sdepth body < sp r <= sp (m_rt N)).
  { cbn [m_rt N]. assert (hp r = hp (m_rt M') /\ sp r = sp (m_rt M')) as [-> ->]; [|lia]. rewrite ER. split; reflexivity. }
  pose proof (function_correct N sc' obase' glab ga' h before after body nb F _ (mem r) (sp r) 0 0 B E' PN TMO AB HN QN) as X.
  assert (EA : at_ N (mem r) (sp r) (cells_of before + 1) 0 0 = mkConfig r (mkAct callee (cells_of before + 1) 0 0) cs).
  { unfold at_. cbn [m_rt m_meth m_callers N]. f_equal. now destruct r. }
  rewrite EA in X. change (gets N) with (gets M) in X.
  destruct (execs_body sc' F body _) as [o st1|e st1| |]; cbn [behaves] in X.
  - destruct X as (m' & c' & G2 & (v & k & a1 & -> & -> & I & K & R) & H2 & K2).
    set (r' := set_sp (sp r) (set_mem m' r)).
    assert (IC : in_call M r r').
    { constructor.
      - constructor; reflexivity.
      - reflexivity.
      - apply Z.le_refl.
      - intros x Hx. apply K2; [cbn [m_rt N]; lia|]. intros c Lc. destruct Lc as [L1 L2].
        assert (L3 : 0 < olen sc' (fst c)) by lia. specialize (O1 (fst c) L3). rewrite Lw in O1. unfold apart, adr in *. lia.
      - intros x Hx. apply K2; [cbn [m_rt N]; lia|]. intros c Lc. destruct Lc as [L1 L2].
        assert (L3 : 0 < olen sc' (fst c)) by lia. specialize (O2 (fst c) L3). unfold apart, adr in *. lia. }
    pose proof (returns M sc obase _ glab ga PD callee q ws r r' k v a1 (cells_of pre + cells_of (call_code glab ga es n f)) p' a' D C (proj2 Q) IC K R) as St. fold cs in St.
    exists m', a'. split; [exact I|]. split; [|split].
    + apply (gets_trans M _ _ _ G1). apply (gets_trans M _ _ _ G2). exists 1%nat. unfold vrun. cbn [run]. unfold vstep in St.
      unfold at_. cbn [m_rt m_meth m_callers N]. fold r'. rewrite St. reflexivity.
    + split; [apply H2|]. intros y Ly Ay. destruct H1 as [H1 _]. rewrite <- (H1 y Ly).
      pose proof (live_reach M sc obase _ glab ga PD y Ly) as (? & ? & ?).
      apply load32_ext. intros i Hi. apply K2; [cbn [m_rt N]; lia|]. intros c Lc. specialize (Ay c Lc). unfold apart in *. lia.
    + intros x Hx A1 A2. rewrite <- (K1 x Hx A1). apply K2; [cbn [m_rt N]; lia|exact A2].
  - destruct X as (k & r1 & R1 & H2). destruct G1 as [k1 G1]. exists (k1 + k)%nat, r1. split; [|apply H2].
    rewrite (vrun_app M _ _ _ _ G1). exact R1.
  - exact Logic.I.
  - destruct X as (c' & R1). destruct G1 as [k1 G1]. apply (vrun_prefix M F k1 _ c'). rewrite Nat.add_comm, (vrun_app M _ _ _ _ G1). exact R1.
Qed.
