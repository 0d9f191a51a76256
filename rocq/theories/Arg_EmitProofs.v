(* Proofs about the code of calls. *)
From Coq Require Import ZifyBool Lia.
From Verif Require Import Base Base_Proofs Rt_Model Rt_Spec Rt_Proofs Interp_Model Gen_Model Gen_Spec Gen_Steps Gen_Proofs Gen_Link Arg_Emit Arg_EmitSpec.
From Verif Require Label_Model Label_Spec Hist_Proofs.
Ltac Zify.zify_post_hook ::= idtac.

Section Machine.
Variables (M : machine) (sc : scope) (obase : nat -> Z) (wh : nat -> Z) (glab : nat -> nat) (ga : nat -> Z).
Hypothesis PD : placed_data M sc obase wh glab ga.
Hypothesis TMO : forall c, m_tmo M c = false.
Hypothesis SMALL : 4 * Z.of_nat (length (p_code (m_prog M))) < two31.
Notation code := (p_code (m_prog M)).
Notation ncells := (Z.of_nat (length (p_code (m_prog M)))).
Notation s0 := (m_rt M).
Notation At := (at_ M).
Notation Laid := (laid (p_code (m_prog M)) wh).
Notation Only := (only_data M sc obase).
Notation Holds := (holds M sc obase).
Notation reaches := (Gen_Proofs.reaches M sc obase).

Lemma kept q m m' x : Only q m m' -> hp s0 <= q -> q <= x -> x + 4 <= sp s0 -> load32 m' x = load32 m x.
Proof.
  intros A L0 L1 L2. apply load32_ext. intros i Hi. apply A; [lia|]. intros c Hc.
  pose proof (live_reach M sc obase wh glab ga PD c Hc) as (? & ? & ?). unfold apart. lia.
Qed.

Lemma go_addr m q k p a s : 0 <= k -> k + 2 <= ncells -> cell_at code k = 13 -> cell_at code (k + 1) = s -> slot_ok M s ->
  gets M (At m q k p a) (At m q (k + 2) (slot_adr M s) a).
Proof.
  intros K1 K2 C C2 S. apply (go M k (ADDR Pri s) 2).
  - unfold ins. rewrite ?C. split; [lia|split; [lia|split; [lia|split; [discriminate|split; [discriminate|]]]]].
    split; [unfold Interp_Model.decode; rewrite C, C2; reflexivity|]. split; [unfold insn_size; rewrite C; reflexivity|exact Logic.I].
  - now apply (slots_one M _ s).
  - reflexivity.
Qed.

(* One argument. *)
Lemma one e : accepted_arg e -> forall n k m q p a st,
  Laid k (emit_arg glab ga e n) -> 0 <= k -> k + size (emit_arg glab ga e n) < ncells -> Holds st m ->
  hp s0 + 4 * arg_depth e < q <= sp s0 ->
  reaches m (At m q k p a) q (eval_arg sc e st) (fun v m' c' => is_i32 (word obase v) /\
    exists a', c' = At m' q (k + size (emit_arg glab ga e n)) (word obase v) a').
Proof.
  intros A n k m q p a st L K1 K2 H Q.
  destruct (gen_correct M sc obase wh glab ga PD TMO SMALL) as (GV & GL & _).
  assert (ADR : forall x, live sc x -> is_i32 (adr obase x)).
  { intros x X. apply (reach_i32 M sc obase wh glab ga PD). now apply (live_reach M sc obase wh glab ga PD). }
  destruct e as [e|l|r|e s]; cbn [eval_arg emit_arg accepted_arg arg_depth] in *.
  - pose proof (GV e A Value n) as X. rewrite value_mode in X. specialize (X k m q p a st L K1 K2 H Q).
    eapply (r_bind M sc obase q); [lia|exact X|]. intros v st' m' c' (V & a' & ->) H' O.
    apply r_val; [|exact H']. cbn [word]. eauto.
  - rewrite (laid_app M) in L. destruct L as [L1 L2]. rewrite size_app in *.
    pose proof (size_nonneg (gen_lv glab ga l n)) as G1. pose proof (size_nonneg (var_address glab l)) as G2.
    pose proof (GL l A n k m q p a st L1 K1 ltac:(lia) H Q) as X.
    eapply (r_bind M sc obase q); [lia|exact X|]. intros x st' m' c' (p' & a' & -> & R) H' O. destruct R as [Lv R].
    cbn [word]. set (k1 := k + size (gen_lv glab ga l n)) in *.
    assert (Y : gets M (At m' q k1 p' a') (At m' q (k + (size (gen_lv glab ga l n) + size (var_address glab l))) (adr obase x) a')).
    { replace (k + (size (gen_lv glab ga l n) + size (var_address glab l))) with (k1 + size (var_address glab l)) by (unfold k1; lia).
      assert (K3 : 0 <= k1) by (unfold k1; lia). assert (K4 : k1 + size (var_address glab l) < ncells) by (unfold k1; lia).
      destruct l as [[s|g|s]|ar sz ix]; cbn [var_address] in *.
      - change (size [Emit [13; s]]) with 2 in *. destruct (pd_local _ _ _ _ _ _ PD s x R) as (So & Si & Sa & _).
        apply (laid2 M) in L2 as (C1 & C2 & _); [|now apply Gen_Proofs.op_i32|exact Si].
        rewrite <- Sa. apply go_addr; auto; lia.
      - change (size [EmitLabel 11 (glab g)]) with 2 in *. destruct (pd_global _ _ _ _ _ _ PD g x R) as (Wg & _ & _).
        apply (laid_label M) in L2 as (C1 & C2 & _); [|now apply Gen_Proofs.op_i32|rewrite Wg; now apply ADR].
        rewrite Wg in C2. apply (go_const_label M); auto; lia.
      - change (size [Emit [3; s]]) with 2 in *.
        destruct (ref_slot M sc obase wh glab ga PD s x st' m' R H') as (So & Si & Sr & Sl).
        apply (laid2 M) in L2 as (C1 & C2 & _); [|now apply Gen_Proofs.op_i32|exact Si].
        rewrite <- Sl. apply (go_load_s M sc obase wh glab ga PD); auto; lia.
      - cbn [size]. rewrite Z.add_0_r. rewrite R. apply gets_refl. }
    eapply (r_go0 M sc obase); [exact Y|]. apply r_val; [|exact H']. split; [now apply ADR|eauto].
  - destruct (aobj sc r) as [o|] eqn:R; [|exact Logic.I].
    destruct (go_array M sc obase wh glab ga PD r o m q k p a st L K1 ltac:(lia) H ltac:(lia) R) as [O G].
    eapply (r_go0 M sc obase); [exact G|]. apply r_val; [|exact H]. cbn [word].
    replace (adr obase (o, 0)) with (obase o) by (unfold adr; cbn [fst snd]; lia). split; [|eauto].
    replace (obase o) with (adr obase (o, 0)) by (unfold adr; cbn [fst snd]; lia). apply ADR. unfold live. cbn [fst snd]. lia.
  - rewrite !(laid_app M) in L. destruct L as (L1 & L2 & L3). rewrite !size_app in *.
    change (size [Emit [17; s]]) with 2 in *. change (size [Emit [13; s]]) with 2 in *.
    set (g := gen glab ga Value e n) in *. pose proof (size_nonneg g) as G1.
    pose proof (GV e A Value n) as X. rewrite value_mode in X. fold g in X. specialize (X k m q p a st L1 K1 ltac:(lia) H Q).
    eapply (r_bind M sc obase q); [lia|exact X|]. intros v st' m' c' (V & a' & ->) H' O.
    destruct (vloc sc (VLocal s)) as [x|] eqn:R; [|exact Logic.I].
    destruct (pd_local _ _ _ _ _ _ PD s x R) as (So & Si & Sa & Lv).
    apply (laid2 M) in L2 as (C1 & C2 & _); [|now apply Gen_Proofs.op_i32|exact Si].
    apply (laid2 M) in L3 as (C3 & C4 & _); [|now apply Gen_Proofs.op_i32|exact Si].
    pose proof (live_reach M sc obase wh glab ga PD x Lv) as RX.
    apply (r_go M sc obase (store32 m' (adr obase x) v) (At (store32 m' (adr obase x) v) q (k + size g + 2) v a')).
    + rewrite <- Sa. apply (go_stor_s M sc obase wh glab ga PD); auto; try lia. now rewrite Sa.
    + now apply (only_store M sc obase).
    + eapply (r_go0 M sc obase); [apply (go_addr _ _ _ _ _ s); auto; lia|]. apply r_val.
      * cbn [word]. rewrite Sa. split; [now apply ADR|]. exists a'. f_equal. lia.
      * now apply (holds_update M sc obase wh glab ga PD).
Qed.

Lemma pushes es : (forall e, In e es -> accepted_arg e) -> forall n k m q p a st,
  Laid k (push_args glab ga es n) -> 0 <= k -> k + size (push_args glab ga es n) < ncells -> Holds st m ->
  hp s0 + 4 * push_depth es < q <= sp s0 ->
  reaches m (At m q k p a) q (eval_args sc es st) (fun vs m' c' => length vs = length es /\
    (forall i v, nth_error (map (word obase) vs) i = Some v -> load32 m' (q - 4 * Z.of_nat (length es) + 4 * Z.of_nat i) = v) /\
    exists p' a', c' = At m' (q - 4 * Z.of_nat (length es)) (k + size (push_args glab ga es n)) p' a').
Proof.
  induction es as [|e r IH]; intros A n k m q p a st L K1 K2 H Q.
  - cbn [eval_args]. apply r_val; [|exact H]. split; [reflexivity|]. split; [intros [|i] v N; discriminate N|].
    exists p, a. cbn. f_equal; lia.
  - cbn [eval_args push_args push_depth] in *. rewrite !(laid_app M) in L. destruct L as (L1 & L2 & L3).
    rewrite !(size_app) in *. change (size [PUSH_PRI]) with 1 in *.
    set (g1 := push_args glab ga r n) in *. set (g2 := emit_arg glab ga e (n + nls r)) in *.
    pose proof (size_nonneg g1) as G1. pose proof (size_nonneg g2) as G2. pose proof (lay_bounds M sc obase wh glab ga PD) as LB.
    set (d := Z.of_nat (length r)) in *.
    assert (DD : 0 <= d) by (unfold d; lia).
    assert (K3 : k + size g1 < ncells) by lia. assert (Q3 : hp s0 + 4 * push_depth r < q <= sp s0) by lia.
    eapply (r_bind M sc obase q); [lia|exact (IH (fun x I => A x (or_intror I)) n k m q p a st L1 K1 K3 H Q3)|].
    intros vs st1 m1 c1 (Ln & Vs & p1 & a1 & ->) H1 O1. fold g1. fold d.
    assert (K4 : k + size g1 + size g2 < ncells) by lia.
    pose proof (one e (A e (or_introl eq_refl)) (n + nls r)%nat (k + size g1) m1 (q - 4 * d) p1 a1 st1 L2 ltac:(lia) K4 H1 ltac:(lia)) as X.
    fold g2 in X.
    eapply (r_bind M sc obase (q - 4 * d)); [lia|exact X|].
    intros v st2 m2 c2 (V & a2 & ->) H2 O2.
    apply (laid1 M) in L3 as [C _]; [|now apply Gen_Proofs.op_i32].
    set (z := word obase v) in *.
    apply (r_go M sc obase (store32 m2 (q - 4 * d - 4) z) (At (store32 m2 (q - 4 * d - 4) z) (q - 4 * d - 4) (k + size g1 + size g2 + 1) z a2)).
    + replace (k + size g1 + size g2) with (k + (size g1 + size g2)) in * by lia.
      apply (go_push M sc obase wh glab ga PD); auto; lia.
    + apply (only_mono M sc obase (q - 4 * d)); [lia|]. apply (only_push M sc obase). lia.
    + apply r_val; [|apply (holds_push M sc obase wh glab ga PD); [exact H2|lia|lia]].
      cbn [length map]. fold z. split; [lia|]. replace (Z.of_nat (S (length r))) with (d + 1) by (unfold d; lia). split.
      * intros [|i] w N; cbn in N.
        -- injection N as <-. replace (q - 4 * (d + 1) + 4 * Z.of_nat 0) with (q - 4 * d - 4) by lia.
           rewrite load32_store32_same. now apply wrap32_id.
        -- assert (IL : (i < length r)%nat) by (rewrite <- Ln, <- (map_length (word obase)); apply nth_error_Some; congruence).
           rewrite load32_store32_other by lia. rewrite (kept _ _ _ _ O2) by lia.
           rewrite <- (Vs i w N). f_equal. lia.
      * exists z, a2. f_equal; lia.
Qed.

(* Entering a function. *)
Lemma enters callee s : layout s -> pointers_inside s -> 0 <= hp s -> sp s <= stp s ->
  is_i32 (frm s) -> StackSizeForLocalSlots callee <= 0 -> hp s + 76 - StackSizeForLocalSlots callee <= sp s ->
  exists r, Interp_Model.enter callee s = Ok tt r /\ frm r = sp s - 8 /\ sp r = sp s - 8 + StackSizeForLocalSlots callee /\
    hp r = hp s + 4 /\ hp_scope r = hp_scope s /\ same_plugin s r /\ load32 (mem r) (sp s - 4) = frm s /\
    (load32 (mem r) (sp s - 8) = hp s /\ load32 (mem r) (hp s) = hp_scope s) /\ (forall x, ~ (hp s <= x < sp s) -> mem r x = mem s x).
Proof.
  intros L P H0 H1 F S0 R. assert (LL := L). destruct L as [l1 l2 l3 l4]. assert (PP := P). destruct P as [? ? ? ?].
  unfold two31 in l3.
  assert (I0 : I s) by (split; assumption).
  set (m1 := store32 (store32 (mem s) (sp s - 4) (frm s)) (hp s) (hp_scope s)).
  set (m2 := store32 m1 (sp s - 8) (hp s)).
  set (r1 := set_frm (sp s - 8) (set_mem m2 (set_sp (sp s - 8) (set_hp (hp s + 4) s)))).
  assert (E1 : pushAmxFrame s = Ok tt r1).
  { unfold pushAmxFrame. unfold bind at 1, get at 1. unfold bind at 1. rewrite pushStack_eq by exact I0.
    replace (sp s <=? hp s + 4) with false by lia.
    set (s1 := set_mem _ _).
    assert (I1 : I s1).
    { split; [unfold s1; constructor; wsimp; assumption|]. unfold s1. constructor; wsimp; try assumption; unfold is_i32, two31 in *; lia. }
    unfold bind at 1. rewrite heapAlloc_eq; [|exact I1|split; [unfold is_i32, two31; lia|unfold s1, two31; cbn [mem_size set_mem set_sp]; lia]].
    change (4 <? 0) with false. cbv iota. unfold s1 in *. wsimp. replace (hp s + 4 + 64 >? sp s - 4) with false by lia.
    unfold bind at 1. rewrite throwIfBadAddress_ok by (unfold script_address, in_gap; wsimp; lia).
    unfold bind at 1, get at 1, bind at 1. wsimp. unfold wr32 at 1. rewrite in_mem_true by (wsimp; lia). wsimp.
    set (s2 := set_mem _ _).
    assert (I2 : I s2).
    { split; [unfold s2; constructor; wsimp; assumption|]. unfold s2. constructor; wsimp; try assumption; unfold is_i32, two31 in *; lia. }
    unfold bind at 1. rewrite pushStack_eq by exact I2. unfold s2 in *. wsimp.
    replace (sp s - 4 <=? hp s + 4 + 4) with false by lia. unfold bind, get, put. wsimp.
    replace (sp s - 4 - 4) with (sp s - 8) by lia. reflexivity. }
  assert (I1 : I r1).
  { split; [unfold r1; constructor; wsimp; assumption|]. unfold r1. constructor; wsimp; try assumption; unfold is_i32, two31 in *; lia. }
  assert (E2 : Interp_Model.enter callee s = Ok tt (set_sp (sp s - 8 + StackSizeForLocalSlots callee) r1)).
  { unfold Interp_Model.enter, bind. rewrite E1. destruct (StackSizeForLocalSlots callee =? 0) eqn:Z0.
    - unfold ret. f_equal. replace (StackSizeForLocalSlots callee) with 0 by lia. rewrite Z.add_0_r. reflexivity.
    - rewrite addStack_eq; [|exact I1|split; [unfold is_i32, two31; lia|unfold r1, two31; cbn [mem_size set_mem set_sp set_frm set_hp]; lia]].
      replace (StackSizeForLocalSlots callee <? 0) with true by lia.
      unfold r1 at 1 2. cbn [sp hp set_frm set_mem set_sp set_hp].
      replace (sp s - 8 + StackSizeForLocalSlots callee <? hp s + 4 + 64) with false by lia. reflexivity. }
  eexists. split; [exact E2|]. unfold r1. wsimp. repeat (split; [reflexivity|]). split; [constructor; reflexivity|]. split.
  - unfold m2, m1. rewrite !load32_store32_other by lia. rewrite load32_store32_same. now apply wrap32_id.
  - split; [split|].
    + unfold m2. rewrite load32_store32_same. apply wrap32_id. unfold is_i32, two31. lia.
    + unfold m2, m1. rewrite load32_store32_other by lia. rewrite load32_store32_same. now apply wrap32_id.
    + intros x X. unfold m2, m1. rewrite !store32_out by lia. reflexivity.
Qed.

Lemma go_push_c m q k p a v : 0 <= k -> k + 2 <= ncells -> cell_at code k = 39 -> cell_at code (k + 1) = v -> hp s0 + 4 < q <= sp s0 ->
  gets M (At m q k p a) (At (store32 m (q - 4) v) (q - 4) (k + 2) p a).
Proof.
  intros K1 K2 C C2 Q. apply (go M k (PUSH_C [v]) 2).
  - unfold ins. rewrite ?C. split; [lia|split; [lia|split; [lia|split; [discriminate|split; [discriminate|]]]]].
    split; [unfold Interp_Model.decode; rewrite C, C2; reflexivity|]. split; [unfold insn_size; rewrite C; reflexivity|exact Logic.I].
  - now apply slots_none.
  - cbn [exec push_list]. unfold bind, lift. cbn [rts pri alt].
    rewrite pushStack_eq by (apply (inside M sc obase wh glab ga PD); lia).
    change (sp (set_sp q (set_mem m s0))) with q. change (hp (set_sp q (set_mem m s0))) with (hp s0).
    replace (q <=? hp s0 + 4) with false by lia. reflexivity.
Qed.
Lemma go_call m q k p a o callee r : 0 <= k -> k + 2 <= ncells -> cell_at code k = 49 -> cell_at code (k + 1) = o ->
  p_validate (m_prog M) o = inl callee -> Interp_Model.enter callee (set_sp q (set_mem m s0)) = Ok tt r ->
  gets M (At m q k p a) (mkConfig r (mkAct callee (o / 4 + 1) 0 0) (mkAct (m_meth M) (k + 2) p a :: m_callers M)).
Proof.
  intros K1 K2 C1 C2 V E. apply (gets_step M false). unfold vstep, step, Interp_Model.ncells, at_. cbn [c_cur c_rt c_callers a_pc a_meth a_pri a_alt].
  replace ((k <? 0) || (ncells <? k)) with false by lia.
  replace (k =? ncells) with false by lia.
  unfold Interp_Model.decode, insn_size. rewrite C1, C2. cbv iota beta. change (opcode_size 49) with 2.
  change ((49 =? OP_PROC) || (49 =? OP_ENDPROC)) with false. change (49 =? OP_CASETBL) with false. cbv iota.
  replace (ncells <? k + 2) with false by lia. rewrite V, E. reflexivity.
Qed.

Lemma calls es : (forall e, In e es -> accepted_arg e) -> forall n f kf callee k m q p a st,
  Laid k (call_code glab ga es n f) -> 0 <= k -> k + size (call_code glab ga es n f) < ncells -> Holds st m ->
  hp s0 + 4 * push_depth es < q <= sp s0 ->
  wh f = 4 * kf -> 0 <= kf < ncells -> p_validate (m_prog M) (wh f) = inl callee ->
  StackSizeForLocalSlots callee <= 0 -> hp s0 + 4 * Z.of_nat (length es) + 80 - StackSizeForLocalSlots callee <= q ->
  match eval_args sc es st with
  | Val vs st' => exists r p' a',
      gets M (At m q k p a) (mkConfig r (mkAct callee (kf + 1) 0 0)
                                (mkAct (m_meth M) (k + size (call_code glab ga es n f)) p' a' :: m_callers M)) /\
      called M callee q (map (word obase) vs) r /\ Holds st' (mem r) /\ Only q m (mem r)
  | Err e st' => stops M sc obase (At m q k p a) e st'
  | Unspecified => True
  end.
Proof.
  intros A n f kf callee k m q p a st L K1 K2 H Q W KF V S0 Room. unfold call_code in *.
  rewrite (laid_app M) in L. destruct L as [L1 L2]. rewrite size_app in *.
  change (size [Emit [39; Z.of_nat (length es)]; EmitLabel 49 f]) with 4 in *.
  set (g := push_args glab ga es n) in *. pose proof (size_nonneg g) as G0.
  assert (K3 : k + size g < ncells) by lia.
  pose proof (pushes es A n k m q p a st L1 K1 K3 H Q) as X. fold g in X.
  destruct (eval_args sc es st) as [vs st'|e st'|]; cbn [Gen_Proofs.reaches] in X; [|exact X|exact Logic.I].
  destruct X as (m1 & c1 & X1 & (Ln & Vs & p1 & a1 & ->) & H1 & O1).
  assert (Lw : length (map (word obase) vs) = length es) by now rewrite map_length. set (ws := map (word obase) vs) in *. clearbody ws.
  set (d := Z.of_nat (length es)) in *. assert (DD : 0 <= d) by (unfold d; lia).
  pose proof (lay_bounds M sc obase wh glab ga PD) as LB.
  assert (LB' := LB). unfold two31 in LB'.
  apply (laid2 M) in L2 as (C1 & C2 & L2); [|now apply Gen_Proofs.op_i32|unfold is_i32, two31; lia].
  apply (laid_label M) in L2 as (C3 & C4 & _); [|now apply Gen_Proofs.op_i32|rewrite W; unfold is_i32, two31 in *; lia].
  set (q1 := q - 4 * d) in *.
  assert (G2 := go_push_c m1 q1 (k + size g) p1 a1 d ltac:(lia) ltac:(lia) C1 C2 ltac:(lia)).
  set (m2 := store32 m1 (q1 - 4) d) in *.
  set (s1 := set_sp (q1 - 4) (set_mem m2 s0)).
  pose proof (pd_inside _ _ _ _ _ _ PD) as PI. assert (PI' := PI). destruct PI' as [pi1 pi2 pi3 pi4].
  assert (I1 : I s1) by (apply (inside M sc obase wh glab ga PD); unfold q1; lia).
  destruct (enters callee s1) as (r & E & F1 & F2 & F3 & F3' & SP & F4 & (F6 & F7) & F5).
  { apply I1. } { apply I1. } { unfold s1; wsimp; lia. } { unfold s1; wsimp; unfold q1; lia. } { unfold s1; wsimp; assumption. } { exact S0. }
  { unfold s1; wsimp; unfold q1; lia. }
  assert (G3 := go_call m2 (q1 - 4) (k + size g + 2) p1 a1 (wh f) callee r ltac:(lia) ltac:(lia) C3 C4 V E).
  unfold s1 in F1, F2, F3, F3', F4, F5, F6, F7. cbn [mem hp sp frm hp_scope set_mem set_sp] in F1, F2, F3, F3', F4, F5, F6, F7.
  exists r, p1, a1.
  assert (Keep : forall x, q1 - 4 <= x -> load32 (mem r) x = load32 m2 x).
  { intros x Hx. apply load32_ext. intros i Hi. apply F5. lia. }
  assert (M2 : forall x, q1 <= x -> load32 m2 x = load32 m1 x).
  { intros x Hx. unfold m2. apply load32_store32_other. lia. }
  assert (Args : forall i v, nth_error ws i = Some v -> load32 (mem r) (frm r + 12 + 4 * Z.of_nat i) = v).
  { intros i v N. rewrite F1. replace (q1 - 4 - 8 + 12 + 4 * Z.of_nat i) with (q1 + 4 * Z.of_nat i) by lia.
    rewrite Keep, M2 by lia. apply Vs. exact N. }
  split; [|split; [|split]].
  - apply (gets_trans M _ _ _ X1). apply (gets_trans M _ _ _ G2).
    replace (kf + 1) with (wh f / 4 + 1) by (rewrite W, Z.mul_comm, Z.div_mul; lia).
    replace (k + (size g + 4)) with (k + size g + 2 + 2) by lia. exact G3.
  - constructor.
    + rewrite F1. replace (q1 - 4 - 8 + 4) with (q1 - 4 - 4) by lia. exact F4.
    + rewrite F1. replace (q1 - 4 - 8 + 8) with (q1 - 4) by lia. rewrite Keep by lia. unfold m2.
      rewrite load32_store32_same, wrap32_id by (unfold is_i32, two31; lia). unfold d. now rewrite Lw.
    + exact Args.
    + rewrite F1, Lw. fold d. unfold q1. lia.
    + intros T i v N. assert (IL : (i < length es)%nat) by (rewrite <- Lw; apply nth_error_Some; congruence).
      destruct SP as [sp1 sp2 sp3 _ _]. unfold s1 in sp1, sp2, sp3. cbn [mem_size data_size stp set_sp set_mem] in sp1, sp2, sp3.
      pose proof (pd_layout _ _ _ _ _ _ PD) as [? ? ? ?].
      rewrite getFrameValue_eq. unfold StackOffset. rewrite T. cbn [negb].
      replace (- (Z.of_nat i + 1) <? 0) with true by lia.
      replace ((- - (Z.of_nat i + 1) - 1 + 3) * 4) with (12 + 4 * Z.of_nat i) by lia.
      rewrite (wrap32_id (12 + _)) by (unfold is_i32, two31, d, q1 in *; lia).
      rewrite wrap32_id by (unfold is_i32, two31, d, q1 in *; lia).
      rewrite getCellValue_ok.
      * rewrite Z.add_assoc. now rewrite (Args i v N).
      * constructor; congruence || lia.
      * unfold script_address, in_gap. unfold d, q1 in *. lia.
    + destruct SP as [sp1 sp2 sp3 sp4 sp5]. constructor; assumption.
    + exact F3.
    + rewrite F3, F2, F1. unfold q1 in *. lia.
    + rewrite F1. exact F6.
    + exact F7.
    + rewrite F2, F1. reflexivity.
    + exact F3'.
  - apply (holds_only M sc obase wh glab ga PD q st' m1); [exact H1| |intros x X Y|lia].
    + intros x X. pose proof (live_reach M sc obase wh glab ga PD x X) as (? & ? & ?).
      transitivity (load32 m2 (adr obase x)).
      * apply load32_ext. intros i Hi. apply F5. unfold q1 in *. lia.
      * unfold m2. apply load32_store32_other. unfold q1 in *. lia.
    + rewrite F5 by (unfold q1 in *; lia). unfold m2. apply store32_out. unfold q1 in *. lia.
  - apply (only_trans M sc obase q m m1); [exact O1|]. intros x X Y.
    rewrite F5 by (unfold q1 in *; lia). unfold m2. apply store32_out. unfold q1 in *. lia.
Qed.

(* Natives. *)
Lemma pops j : forall s, layout s -> 0 <= sp s -> sp s + 4 * Z.of_nat j <= stp s -> pop_n j s = Ok tt (set_sp (sp s + 4 * Z.of_nat j) s).
Proof.
  induction j as [|j IH]; intros s L H1 H2.
  - cbn [pop_n]. unfold ret. f_equal. replace (sp s + 4 * Z.of_nat 0) with (sp s) by lia. now destruct s.
  - cbn [pop_n]. unfold bind. rewrite Hist_Proofs.popStack_at by (auto; lia).
    rewrite IH; [|destruct L; constructor; wsimp; assumption|wsimp; lia|wsimp; lia]. wsimp. f_equal.
    replace (sp s + 4 + 4 * Z.of_nat j) with (sp s + 4 * Z.of_nat (S j)) by lia. reflexivity.
Qed.
Lemma calls_native es : (forall e, In e es -> accepted_arg e) -> forall n f nt host k m q p a st,
  Laid k (native_code glab ga es n f) -> 0 <= k -> k + size (native_code glab ga es n f) < ncells -> Holds st m ->
  hp s0 + 4 * push_depth es < q <= sp s0 -> hp s0 + 4 * Z.of_nat (length es) + 4 < q -> 
  is_i32 (wh f) -> p_natives (m_prog M) (wh f) = Some nt -> n_fn nt = Some host -> n_repl nt = None ->
  match eval_args sc es st with
  | Val vs st' => exists s c a', gets M (At m q k p a) c /\ handed s (map (word obase) vs) /\ Holds st' (mem s) /\ Only q m (mem s) /\ sp s = q - 4 * (Z.of_nat (length vs) + 1) /\ hp s = hp s0 /\ frm s = frm s0 /\
      (forall v r, host s = Ok v r -> same_plugin s r ->
         vstep M c = Next false (mkConfig (set_sp q (set_hp (hp s0) r)) (mkAct (m_meth M) (k + size (native_code glab ga es n f)) v a') (m_callers M))) /\
      (forall e r, host s = Fail e r -> exists r', vstep M c = Stop e r' /\ mem r' = mem r)
  | Err e st' => stops M sc obase (At m q k p a) e st'
  | Unspecified => True
  end.
Proof.
  intros A n f nt host k m q p a st L K1 K2 H Q Room W NT HF NR. unfold native_code in *.
  rewrite (laid_app M) in L. destruct L as [L1 L2]. rewrite size_app in *.
  change (size [Label_Model.SysReqN 135 f (Z.of_nat (length es))]) with 3 in *.
  set (g := push_args glab ga es n) in *. pose proof (size_nonneg g) as G0.
  assert (K3 : k + size g < ncells) by lia.
  pose proof (pushes es A n k m q p a st L1 K1 K3 H Q) as X. fold g in X.
  destruct (eval_args sc es st) as [vs st'|e st'|]; cbn [Gen_Proofs.reaches] in X; [|exact X|exact Logic.I].
  destruct X as (m1 & c1 & X1 & (Ln & Vs & p1 & a1 & ->) & H1 & O1).
  assert (Lw : length (map (word obase) vs) = length es) by now rewrite map_length. set (ws := map (word obase) vs) in *. clearbody ws.
  rewrite Ln in *.
  set (d := Z.of_nat (length es)) in *. assert (DD : 0 <= d) by (unfold d; lia).
  pose proof (lay_bounds M sc obase wh glab ga PD) as LB. assert (LB' := LB). unfold two31 in LB'.
  cbn [laid] in L2. destruct L2 as (C1 & C2 & C3 & _). fold d in C3. rewrite wrap32_id in C1 by now apply Gen_Proofs.op_i32.
  rewrite wrap32_id in C2 by exact W. rewrite wrap32_id in C3 by (unfold is_i32, two31; lia).
  set (q1 := q - 4 * d) in *. set (k1 := k + size g) in *.
  set (s1 := set_sp (q1 - 4) (set_mem (store32 m1 (q1 - 4) d) s0)).
  exists s1, (At m1 q1 k1 p1 a1), a1.
  assert (Step : vstep M (At m1 q1 k1 p1 a1) =
    match host s1 with
    | Ok v r => match pop_n (Z.to_nat (d + 1)) (set_hp (hp s0) (set_sp (q1 - 4) r)) with
                | Ok _ r' => Next false (mkConfig r' (mkAct (m_meth M) (k1 + 3) v a1) (m_callers M))
                | Fail e r' => Stop e r'
                | UB u => Undef u
                end
    | Fail e r => Stop e (set_hp (hp s0) (set_sp (q1 - 4) r))
    | UB u => Undef u
    end).
  { rewrite (vstep_plain M k1 (SYSREQ_N (wh f) d) 3); try lia.
    - cbn [exec]. rewrite NT, HF, NR. unfold bind, lift at 1. cbn [rts pri alt].
      rewrite pushStack_eq by (apply (inside M sc obase wh glab ga PD); unfold q1; lia).
      change (sp (set_sp q1 (set_mem m1 s0))) with q1. change (hp (set_sp q1 (set_mem m1 s0))) with (hp s0).
      replace (q1 <=? hp s0 + 4) with false by (unfold q1; lia).
      unfold invokeNative. rewrite NT, HF. cbn [rts pri alt].
      change (set_mem (store32 (mem (set_sp q1 (set_mem m1 s0))) (q1 - 4) d) (set_sp (q1 - 4) (set_sp q1 (set_mem m1 s0)))) with s1.
      destruct (host s1) as [v r|e r|u]; [|reflexivity|reflexivity].
      change (sp s1) with (q1 - 4). change (hp s1) with (hp s0). unfold lift. cbn [rts pri alt].
      rewrite u32_id by (unfold is_u32, two32; lia).
      destruct (pop_n (Z.to_nat (d + 1)) (set_hp (hp s0) (set_sp (q1 - 4) r))); reflexivity.
    - rewrite C1. discriminate.
    - rewrite C1. discriminate.
    - unfold Interp_Model.decode. rewrite C1, C2, C3. reflexivity.
    - unfold insn_size. rewrite C1. reflexivity.
    - exact Logic.I.
    - now apply slots_none. }
  split; [exact X1|].
  assert (M2 : forall x, q1 <= x -> load32 (store32 m1 (q1 - 4) d) x = load32 m1 x).
  { intros x Hx. apply load32_store32_other. lia. }
  split. { split.
    - unfold s1. cbn [mem sp set_sp set_mem]. rewrite load32_store32_same, wrap32_id by (unfold is_i32, two31; lia). unfold d. now rewrite Lw.
    - intros i v N. unfold s1. cbn [mem sp set_sp set_mem]. rewrite M2 by lia.
      replace (q1 - 4 + 4 + 4 * Z.of_nat i) with (q1 + 4 * Z.of_nat i) by lia. now apply Vs. }
  split. { unfold s1. cbn [mem sp set_sp set_mem]. apply (holds_push M sc obase wh glab ga PD); [exact H1|unfold q1; lia|unfold q1; lia]. }
  split. { unfold s1. cbn [mem sp set_sp set_mem]. apply (only_trans M sc obase q m m1); [exact O1|].
    apply (only_mono M sc obase q1); [unfold q1; lia|]. apply (only_push M sc obase). unfold q1; lia. }
  split; [unfold s1; cbn [sp set_sp]; unfold q1; lia|]. split; [reflexivity|]. split; [reflexivity|]. split.
  - intros v r E [P1 P2 P3 P4 P5]. rewrite Step, E. unfold s1 in P1, P2, P3. cbn [mem_size data_size stp set_sp set_mem] in P1, P2, P3.
    pose proof (pd_layout _ _ _ _ _ _ PD) as [l1 l2 l3 l4].
    rewrite pops.
    + cbn [sp set_hp set_sp]. f_equal. f_equal; [|f_equal; unfold k1; lia].
      replace (q1 - 4 + 4 * Z.of_nat (Z.to_nat (d + 1))) with q by (unfold q1; lia). reflexivity.
    + constructor; wsimp; lia.
    + wsimp. unfold q1; lia.
    + wsimp. unfold q1; lia.
  - intros e r E. rewrite Step, E. eexists. split; reflexivity.
Qed.

(* Returning. *)
Lemma returns callee q vs r r' pc v a k' p' a' : data_size s0 <= hp s0 -> called M callee q vs r -> q <= sp s0 ->
  in_call M r r' -> 0 <= pc < ncells -> cell_at code pc = 48 ->
  vstep M (mkConfig r' (mkAct callee pc v a) (mkAct (m_meth M) k' p' a' :: m_callers M)) = Next false (At (mem r') q k' v a').
Proof.
  intros D [C1 C2 C3 C4 _ [P1 P2 P3 P4 P5] C6 C6' C7 C8 _ _] Q [[R1 R2 R3 R4 R5] F HH Kp Ks] K C.
  pose proof (lay_bounds M sc obase wh glab ga PD) as LB. pose proof (pd_layout _ _ _ _ _ _ PD) as [l1 l2 l3 l4].
  pose proof (pd_inside _ _ _ _ _ _ PD) as [pi1 pi2 pi3 pi4].
  assert (KL : forall x, frm r <= x -> x + 4 <= frm r + 12 -> load32 (mem r') x = load32 (mem r) x).
  { intros x A1 A2. apply load32_ext. intros i Hi. apply Kp. lia. }
  assert (E : popAmxFrame r' = Ok tt (set_sp (frm r + 12 + 4 * Z.of_nat (length vs)) (set_frm (frm s0) (set_hp (hp s0) (set_hp_scope (hp_scope s0) r'))))).
  { apply Hist_Proofs.popAmxFrame_intact; try lia; try assumption.
    - constructor; lia.
    - rewrite KL by lia. exact C7.
    - rewrite KL by lia. exact C1.
    - rewrite KL by lia. exact C2.
    - rewrite <- C8. apply load32_ext. intros i Hi. apply Ks. lia. }
  unfold vstep, step, Interp_Model.ncells. cbn [c_cur c_rt c_callers a_pc a_meth a_pri a_alt].
  replace ((pc <? 0) || (ncells <? pc)) with false by lia.
  replace (pc =? ncells) with false by lia.
  unfold Interp_Model.decode, insn_size. rewrite C. cbv iota beta. change (opcode_size 48) with 1.
  change ((48 =? OP_PROC) || (48 =? OP_ENDPROC)) with false. change (48 =? OP_CASETBL) with false. cbv iota.
  replace (ncells <? pc + 1) with false by lia. rewrite E. cbn [return_to a_meth a_pc a_alt]. unfold at_. rewrite C4.
  f_equal. f_equal. assert (X1 := eq_trans R1 P1). assert (X2 := eq_trans R2 P2). assert (X3 := eq_trans R3 P3).
  assert (X4 := eq_trans R4 P4). assert (X5 := eq_trans R5 P5). unfold set_sp, set_frm, set_hp, set_hp_scope, set_mem. cbn [mem mem_size data_size hp sp stp frm hp_scope heap_scopes direct_arrays]. rewrite X1, X2, X3, X4, X5. reflexivity.
Qed.
End Machine.

Lemma call_correct M sc obase glab ga h pre post es n f kf callee st m q p a :
  built h M -> h = pre ++ call_code glab ga es n f ++ post -> 0 < cells_of post ->
  placed_data M sc obase (resolve h) glab ga -> (forall c, m_tmo M c = false) -> (forall e, In e es -> accepted_arg e) ->
  holds M sc obase st m -> hp (m_rt M) + 4 * push_depth es < q <= sp (m_rt M) ->
  resolve h f = 4 * kf -> 0 <= kf < Z.of_nat (length (p_code (m_prog M))) -> p_validate (m_prog M) (4 * kf) = inl callee ->
  StackSizeForLocalSlots callee <= 0 ->
  hp (m_rt M) + 4 * Z.of_nat (length es) + 80 - StackSizeForLocalSlots callee <= q ->
  match eval_args sc es st with
  | Val vs st' => exists r p' a',
      gets M (at_ M m q (cells_of pre) p a) (mkConfig r (mkAct callee (kf + 1) 0 0)
        (mkAct (m_meth M) (cells_of pre + cells_of (call_code glab ga es n f)) p' a' :: m_callers M)) /\
      called M callee q (map (word obase) vs) r /\ holds M sc obase st' (mem r) /\ only_data M sc obase q m (mem r)
  | Err e st' => stops M sc obase (at_ M m q (cells_of pre) p a) e st'
  | Unspecified => True
  end.
Proof.
  intros B E P PD TMO A H Q T K' V S0 Room. destruct (built_laid h M _ _ _ B E) as (L & K & S & N & Sm).
  rewrite <- T in V. rewrite <- S. apply (calls M sc obase (resolve h) glab ga PD TMO Sm es A); auto; lia.
Qed.

Lemma native_correct M sc obase glab ga h pre post es n f nt host st m q p a :
  built h M -> h = pre ++ native_code glab ga es n f ++ post -> 0 < cells_of post ->
  placed_data M sc obase (resolve h) glab ga -> (forall c, m_tmo M c = false) -> (forall e, In e es -> accepted_arg e) ->
  holds M sc obase st m -> hp (m_rt M) + 4 * push_depth es < q <= sp (m_rt M) -> hp (m_rt M) + 4 * Z.of_nat (length es) + 4 < q ->
  is_i32 (resolve h f) -> p_natives (m_prog M) (resolve h f) = Some nt -> n_fn nt = Some host -> n_repl nt = None ->
  match eval_args sc es st with
  | Val vs st' => exists s c a', gets M (at_ M m q (cells_of pre) p a) c /\ handed s (map (word obase) vs) /\
      holds M sc obase st' (mem s) /\ only_data M sc obase q m (mem s) /\
      sp s = q - 4 * (Z.of_nat (length vs) + 1) /\ hp s = hp (m_rt M) /\ frm s = frm (m_rt M) /\
      (forall v r, host s = Ok v r -> same_plugin s r ->
         vstep M c = Next false (mkConfig (set_sp q (set_hp (hp (m_rt M)) r))
           (mkAct (m_meth M) (cells_of pre + cells_of (native_code glab ga es n f)) v a') (m_callers M))) /\
      (forall e r, host s = Fail e r -> exists r', vstep M c = Stop e r' /\ mem r' = mem r)
  | Err e st' => stops M sc obase (at_ M m q (cells_of pre) p a) e st'
  | Unspecified => True
  end.
Proof.
  intros B E P PD TMO A H Q Room W NT HF NR. destruct (built_laid h M _ _ _ B E) as (L & K & S & N & Sm).
  rewrite <- S. apply (calls_native M sc obase (resolve h) glab ga PD TMO Sm es A n f nt host); auto; lia.
Qed.
