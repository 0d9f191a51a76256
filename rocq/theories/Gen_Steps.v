(* Steps of the machine on emitted code. *)
From Verif Require Import Base Base_Proofs Rt_Model Rt_Spec Rt_Proofs Interp_Model Alu_Spec Alu_Proofs
  Fold_Model Fold_Spec Fold_Proofs Gen_Model Gen_Spec.
From Coq Require Import ZifyBool Lia.
Ltac Zify.zify_post_hook ::= idtac.

Lemma means_comm op x y : commutative op = true -> means op x y = means op y x.
Proof.
  destruct op; try discriminate; intros _; cbn [means].
  - now rewrite Z.mul_comm.
  - now rewrite Z.add_comm.
  - now rewrite Z.land_comm.
  - now rewrite Z.lxor_comm.
  - now rewrite Z.lor_comm.
  - now rewrite Z.eqb_sym.
  - now rewrite Z.eqb_sym.
Qed.
Lemma commutes_no_swap op : commutative op = true -> swaps op = false.
Proof. destruct op; reflexivity || discriminate. Qed.
Lemma truth_range b : is_i32 (truth b). Proof. destruct b; split; vm_compute; congruence. Qed.
Lemma means_range op x y v : is_i32 x -> is_i32 y -> means op x y = OVal v -> is_i32 v.
Proof.
  intros Hx Hy E. pose proof (calc_means op x y Hx Hy) as C. pose proof (fun w => calc_range op x y w Hx Hy) as R.
  destruct (calc false op x y) as [w|?| | |].
  - assert (w = v) as <- by congruence. now apply R.
  - congruence.
  - destruct C; congruence.
  - destruct C; congruence.
  - destruct C; congruence.
Qed.
Lemma umeans_range op x : is_i32 x -> is_i32 (umeans op x).
Proof. destruct op; cbn [umeans]; intros; [unfold is_i32 in *; lia|apply truth_range|apply wrap32_range]. Qed.

Lemma op_means fe nt mi op l r s : is_i32 l -> is_i32 r ->
  exec false fe nt mi (op_instr op) (if swaps op then mkIst s l r else mkIst s r l) =
  match means op l r with
  | OVal v => Ok tt (mkIst s v (if swaps op then r else l))
  | OErr e => Fail e (mkIst s r l)
  | OUndef => UB UBArith
  end.
Proof.
  intros Hl Hr.
  assert (A : forall z s', sarith false z s' = Ok (wrap32 z) s').
  { intros. rewrite sarith_ok. destruct (is_i32b z) eqn:E; [|reflexivity]. apply is_i32b_spec in E. now rewrite wrap32_id. }
  destruct op; cbn [op_instr swaps means exec]; unfold bind, getr, setr; cbn [rts pri alt]; rewrite ?A; cbn [rts pri alt eval_cmp b2z truth];
    try reflexivity.
  - now rewrite Z.mul_comm.
  - unfold check_div, divided, fail. change two31 with (2 ^ 31). rewrite (andb_comm (r =? -1)). destruct (r =? 0); [reflexivity|].
    destruct ((l =? - 2 ^ 31) && (r =? -1)); reflexivity.
  - unfold check_div, divided, fail. change two31 with (2 ^ 31). rewrite (andb_comm (r =? -1)). destruct (r =? 0); [reflexivity|].
    destruct ((l =? - 2 ^ 31) && (r =? -1)); reflexivity.
  - now rewrite Z.add_comm.
  - unfold shl32, shifted, undef, ret. replace (r <? 32) with (r <=? 31) by lia.
    destruct ((0 <=? r) && (r <=? 31)) eqn:E; [|reflexivity]. rewrite Z.shiftl_mul_pow2 by lia. reflexivity.
  - unfold sshr32, shifted, undef, ret. replace (r <? 32) with (r <=? 31) by lia.
    destruct ((0 <=? r) && (r <=? 31)) eqn:E; [|reflexivity]. rewrite Z.shiftr_div_pow2 by lia. reflexivity.
  - unfold shr32, shifted, undef, ret. replace (r <? 32) with (r <=? 31) by lia.
    destruct ((0 <=? r) && (r <=? 31)) eqn:E; [|reflexivity]. rewrite Z.shiftr_div_pow2 by lia. reflexivity.
  - now rewrite Z.land_comm.
  - now rewrite Z.lxor_comm.
  - now rewrite Z.lor_comm.
  - now rewrite Z.eqb_sym.
  - now rewrite Z.eqb_sym.
  - rewrite Z.gtb_ltb. reflexivity.
  - rewrite Z.geb_leb. reflexivity.
Qed.

Section Machine.
Variable M : machine.
Variable sc : scope.
Variable obase : nat -> Z.
Variable wh : nat -> Z.
Variable glab : nat -> nat.
Variable ga : nat -> Z.
Hypothesis PD : placed_data M sc obase wh glab ga.
Hypothesis TMO : forall c, m_tmo M c = false.

Notation code := (p_code (m_prog M)).
Notation ncells := (Z.of_nat (length (p_code (m_prog M)))).
Notation s0 := (m_rt M).
Notation mi := (m_meth M).
Notation At := (at_ M).
Notation St m q := (set_sp q (set_mem m (m_rt M))).
Notation Exec := (exec false (m_fe M) (p_natives (m_prog M)) (m_meth M)).
Notation Gets := (gets M).
Notation Holds := (holds M sc obase).
Notation Only := (only_data M sc obase).
Notation Adr := (adr obase).
Notation Live := (live sc).
Notation Stops := (stops M sc obase).
Notation Laid := (laid code wh).

(* ---- Composition ---- *)
Lemma vrun_app n1 : forall n2 c c', vrun M n1 c = inr c' -> vrun M (n1 + n2) c = vrun M n2 c'.
Proof.
  unfold vrun. induction n1 as [|n1 IH]; intros n2 c c'; cbn [run Nat.add].
  - intros [= ->]. reflexivity.
  - destruct (step _ _ _ _ c) eqn:E; try discriminate. apply IH.
Qed.
Lemma gets_refl c : Gets c c. Proof. exists O. reflexivity. Qed.
Lemma gets_trans a b c : Gets a b -> Gets b c -> Gets a c.
Proof. intros [n1 H1] [n2 H2]. exists (n1 + n2)%nat. rewrite (vrun_app _ _ _ _ H1). exact H2. Qed.
Lemma gets_step b c c' : vstep M c = Next b c' -> Gets c c'.
Proof. unfold vstep. intros H. exists 1%nat. unfold vrun. cbn [run]. now rewrite H. Qed.
Lemma gets_stops a b e st : Gets a b -> Stops b e st -> Stops a e st.
Proof. intros [n1 H1] (n2 & r & H2 & H). exists (n1 + n2)%nat, r. rewrite (vrun_app _ _ _ _ H1). auto. Qed.
Lemma stop_step c e r st : vstep M c = Stop e r -> Holds st (mem r) -> Stops c e st.
Proof. unfold vstep. intros E H. exists 1%nat, r. unfold vrun. cbn [run]. rewrite E. auto. Qed.

(* ---- One step ---- *)
Definition plain (i : instr) : Prop :=
  match i with PROC | ENDPROC | RETN | CALL _ | JUMP _ | JCMP _ _ | SWITCH _ => False | _ => True end.

Lemma vstep_plain k i n m q p a : 0 <= k -> k < ncells ->
  cell_at code k <> OP_PROC -> cell_at code k <> OP_ENDPROC ->
  Interp_Model.decode code k = Some i -> insn_size code k = n -> k + n <= ncells -> plain i -> slots_ok mi i = true ->
  vstep M (At m q k p a) =
  match Exec i (mkIst (St m q) p a) with
  | Ok _ s => Next false (mkConfig (rts s) (mkAct mi (k + n) (pri s) (alt s)) (m_callers M))
  | Fail e s => Stop e (rts s)
  | UB u => Undef u
  end.
Proof.
  intros K1 K2 N1 N2 D Sz B P S. unfold vstep, step, Interp_Model.ncells, at_. cbn [c_cur c_rt c_callers a_pc a_meth a_pri a_alt].
  replace ((k <? 0) || (ncells <? k)) with false by lia.
  replace (k =? ncells) with false by lia.
  replace ((cell_at code k =? OP_PROC) || (cell_at code k =? OP_ENDPROC)) with false by lia.
  rewrite D, Sz. replace (ncells <? k + n) with false by lia.
  destruct i; try contradiction P; rewrite S; reflexivity.
Qed.

Lemma vstep_jump k m q p a o : 0 <= k -> k + 2 <= ncells -> cell_at code k = 51 -> cell_at code (k + 1) = o ->
  0 <= o -> o mod 4 = 0 -> o < 4 * ncells ->
  exists b, vstep M (At m q k p a) = Next b (At m q (o / 4) p a).
Proof.
  intros K1 K2 C1 C2 O1 O2 O3. unfold vstep, step, Interp_Model.ncells, at_. cbn [c_cur c_rt c_callers a_pc a_meth a_pri a_alt].
  replace ((k <? 0) || (ncells <? k)) with false by lia.
  replace (k =? ncells) with false by lia.
  unfold Interp_Model.decode, insn_size. rewrite C1, C2. cbv iota beta. change (opcode_size 51) with 2.
  change ((51 =? OP_PROC) || (51 =? OP_ENDPROC)) with false. change (51 =? OP_CASETBL) with false. cbv iota.
  replace (ncells <? k + 2) with false by lia. unfold do_jump, Interp_Model.ncells. rewrite TMO, andb_false_r. cbn [c_cur c_rt c_callers a_pc a_meth a_pri a_alt].
  replace ((o <? 0) || negb (o mod 4 =? 0) || (ncells * 4 <=? o)) with false by lia. eauto.
Qed.
Lemma vstep_jcmp k cm op m q p a o : 0 <= k -> k + 2 <= ncells -> cell_at code k = op -> cell_at code (k + 1) = o ->
  In (op, cm) [(53, Zero); (54, NotZero); (55, Eq); (56, Neq); (61, Sless); (62, Sleq); (63, Sgrtr); (64, Sgeq)] ->
  0 <= o -> o mod 4 = 0 -> o < 4 * ncells ->
  exists b, vstep M (At m q k p a) = Next b (At m q (if eval_cmp cm p a then o / 4 else k + 2) p a).
Proof.
  intros K1 K2 C1 C2 I O1 O2 O3. unfold vstep, step, Interp_Model.ncells, at_. cbn [c_cur c_rt c_callers a_pc a_meth a_pri a_alt].
  replace ((k <? 0) || (ncells <? k)) with false by lia.
  replace (k =? ncells) with false by lia.
  unfold Interp_Model.decode, insn_size. rewrite C1, C2.
  cbn [In] in I. repeat (destruct I as [I|I]; [injection I as <- <-|]); try contradiction I;
  cbv iota beta; match goal with |- context [opcode_size ?x] => change (opcode_size x) with 2; change (x =? OP_CASETBL) with false;
    change ((x =? OP_PROC) || (x =? OP_ENDPROC)) with false end; cbv iota;
  replace (ncells <? k + 2) with false by lia; unfold do_jump, Interp_Model.ncells; rewrite TMO, andb_false_r; cbn [c_cur c_rt c_callers a_pc a_meth a_pri a_alt];
  replace ((o <? 0) || negb (o mod 4 =? 0) || (ncells * 4 <=? o)) with false by lia;
  (match goal with |- context [if ?b then _ else _] => destruct b end); eauto.
Qed.

(* ---- Laid-out code ---- *)
Lemma size_nonneg g : 0 <= size g.
Proof. induction g as [|o g IH]; [cbn; lia|]. destruct o; cbn [size]; lia. Qed.
Lemma size_app g1 g2 : size (g1 ++ g2) = size g1 + size g2.
Proof. induction g1 as [|o g1 IH]; [reflexivity|]. destruct o; cbn [size app]; lia. Qed.
Lemma laid_app g1 : forall g2 k, Laid k (g1 ++ g2) <-> Laid k g1 /\ Laid (k + size g1) g2.
Proof.
  induction g1 as [|o g1 IH]; intros g2 k.
  - cbn [app laid size]. rewrite Z.add_0_r. tauto.
  - destruct o; cbn [app laid size]; rewrite ?IH, ?Z.add_assoc; tauto.
Qed.
Lemma laid1 k x g : Laid k (Emit [x] :: g) -> is_i32 x -> cell_at code k = x /\ Laid (k + 1) g.
Proof.
  intros [H L] X. split; [|exact L]. specialize (H O ltac:(cbn; lia)). rewrite Z.add_0_r in H. cbn [nth] in H.
  now rewrite wrap32_id in H.
Qed.
Lemma laid2 k x y g : Laid k (Emit [x; y] :: g) -> is_i32 x -> is_i32 y ->
  cell_at code k = x /\ cell_at code (k + 1) = y /\ Laid (k + 2) g.
Proof.
  intros [H L] X Y. pose proof (H O ltac:(cbn; lia)) as A. pose proof (H 1%nat ltac:(cbn; lia)) as B.
  rewrite Z.add_0_r in A. cbn [nth] in A, B. rewrite wrap32_id in A, B by assumption. auto.
Qed.
Lemma laid_label k op l g : Laid k (EmitLabel op l :: g) -> is_i32 op -> is_i32 (wh l) ->
  cell_at code k = op /\ cell_at code (k + 1) = wh l /\ Laid (k + 2) g.
Proof. intros (A & B & L) X Y. rewrite wrap32_id in A, B by assumption. auto. Qed.
Lemma laid_bind k l g : Laid k (Bind l :: g) -> wh l = 4 * k /\ Laid k g.
Proof. exact (fun H => H). Qed.

(* ---- Data ---- *)
Lemma lay_bounds : 0 <= hp s0 /\ hp s0 <= sp s0 <= stp s0 /\ stp s0 = mem_size s0 - 4 /\ mem_size s0 + 128 <= two31 /\ 16384 <= mem_size s0.
Proof. pose proof (pd_layout _ _ _ _ _ _ PD) as [? ? ? ?]. pose proof (pd_hp _ _ _ _ _ _ PD). pose proof (pd_sp _ _ _ _ _ _ PD). lia. Qed.
Lemma lay_St m q : layout (St m q).
Proof. pose proof (pd_layout _ _ _ _ _ _ PD) as [? ? ? ?]. constructor; cbn; assumption. Qed.
Lemma script_St m q x : reachable M x 4 -> q <= sp s0 -> script_address (St m q) x.
Proof. unfold reachable, script_address, in_gap. cbn. lia. Qed.
Lemma reach_i32 x : reachable M x 4 -> is_i32 x.
Proof. unfold reachable, is_i32. pose proof lay_bounds. unfold two31 in *. lia. Qed.
Lemma live_reach x : Live x -> reachable M (Adr x) 4.
Proof.
  destruct x as [o i]. unfold live, adr. cbn [fst snd]. intros H.
  pose proof (pd_objs _ _ _ _ _ _ PD o ltac:(lia)) as R. unfold reachable in *. lia.
Qed.
Lemma live_apart x y : Live x -> Live y -> x = y \/ apart (Adr x) 4 (Adr y) 4.
Proof.
  destruct x as [o i], y as [o' j]. unfold live, adr. cbn [fst snd]. intros H1 H2.
  destruct (Nat.eq_dec o o') as [<-|N].
  - destruct (Z.eq_dec i j) as [<-|N]; [left; reflexivity|]. right. unfold apart. lia.
  - right. pose proof (pd_apart _ _ _ _ _ _ PD o o' N ltac:(lia) ltac:(lia)). unfold apart in *. lia.
Qed.
Lemma pointer_apart s a x : pointer sc obase s a -> Live x -> apart (slot_adr M s) 4 (Adr x) 4.
Proof.
  intros P H. destruct (pd_pointer _ _ _ _ _ _ PD s a P) as (_ & _ & _ & A).
  destruct x as [o i]. unfold live, adr in *. cbn [fst snd] in *. specialize (A o ltac:(lia)). unfold apart in *. lia.
Qed.
Lemma holds_i32 st m x : Holds st m -> Live x -> is_i32 (st x).
Proof. intros [H _] L. rewrite <- (H x L). apply load32_range. Qed.

Lemma only_refl q m : Only q m m. Proof. intros x _ _. reflexivity. Qed.
Lemma only_trans q m1 m2 m3 : Only q m1 m2 -> Only q m2 m3 -> Only q m1 m3.
Proof. intros A B x H1 H2. rewrite B, A; auto. Qed.
Lemma only_mono q q' m m' : q <= q' -> Only q m m' -> Only q' m m'.
Proof. intros L A x H1 H2. apply A; auto. lia. Qed.
Lemma only_push q m v : hp s0 <= q - 4 -> Only q m (store32 m (q - 4) v).
Proof. intros L x H1 H2. apply store32_out. lia. Qed.
Lemma only_store q m x v : Live x -> Only q m (store32 m (Adr x) v).
Proof. intros L y H1 H2. apply store32_out. specialize (H2 x L). unfold apart in H2. lia. Qed.
(* A temporary survives. *)
Lemma only_temp q m m' : Only q m m' -> q + 4 <= sp s0 -> hp s0 <= q -> load32 m' q = load32 m q.
Proof.
  intros A L1 L2. apply load32_ext. intros i Hi. apply A; [lia|]. intros c Hc.
  pose proof (live_reach c Hc) as (? & ? & ?). unfold apart. lia.
Qed.
Lemma holds_only q st m m' : Holds st m -> (forall x, Live x -> load32 m' (Adr x) = load32 m (Adr x)) -> Only q m m' -> q <= sp s0 -> Holds st m'.
Proof.
  intros [A B] H O L. split.
  - intros x X. rewrite H by auto. auto.
  - intros s a P. rewrite <- (B s a P). apply load32_ext. intros i Hi. apply O.
    + destruct (pd_pointer _ _ _ _ _ _ PD s a P) as (_ & _ & (? & ? & ?) & _). lia.
    + intros c Hc. pose proof (pointer_apart s a c P Hc) as Z1. unfold apart in *. lia.
Qed.
Lemma holds_push st m q v : Holds st m -> hp s0 <= q - 4 -> q <= sp s0 -> Holds st (store32 m (q - 4) v).
Proof.
  intros H L1 L2. apply (holds_only q _ m); auto using only_push.
  intros x X. apply load32_store32_other. pose proof (live_reach x X) as (? & ? & ?). lia.
Qed.
Lemma holds_update st m x v : Holds st m -> Live x -> is_i32 v -> Holds (update st x v) (store32 m (Adr x) v).
Proof.
  intros [A B] X V. split.
  - intros y Y. unfold update. destruct (loc_eqb x y) eqn:E.
    + unfold loc_eqb in E. assert (x = y) as <-.
      { destruct x, y. cbn [fst snd] in *. f_equal; [apply Nat.eqb_eq|]; lia. }
      rewrite load32_store32_same. now apply wrap32_id.
    + rewrite load32_store32_other; [auto|]. destruct (live_apart x y X Y) as [<-|P].
      * unfold loc_eqb in E. rewrite Nat.eqb_refl, Z.eqb_refl in E. discriminate.
      * unfold apart in P. lia.
  - intros s a P. rewrite load32_store32_other; [auto|]. pose proof (pointer_apart s a x P X) as Z1. unfold apart in Z1. lia.
Qed.

(* ---- Instructions ---- *)
Definition ins (k : Z) (i : instr) (n : Z) : Prop :=
  0 <= k /\ 0 < n /\ k + n <= ncells /\ cell_at code k <> OP_PROC /\ cell_at code k <> OP_ENDPROC /\
  Interp_Model.decode code k = Some i /\ insn_size code k = n /\ plain i.
Lemma go k i n m q p a m' q' p' a' : ins k i n -> slots_ok mi i = true ->
  Exec i (mkIst (St m q) p a) = Ok tt (mkIst (St m' q') p' a') -> Gets (At m q k p a) (At m' q' (k + n) p' a').
Proof.
  intros (A & B & C & D & E & F & G & H) S X. apply (gets_step false).
  rewrite (vstep_plain k i n) by (auto; lia). rewrite X. reflexivity.
Qed.
Lemma go_fail k i n m q p a e s st : ins k i n -> slots_ok mi i = true ->
  Exec i (mkIst (St m q) p a) = Fail e s -> mem (rts s) = m -> Holds st m -> Stops (At m q k p a) e st.
Proof.
  intros (A & B & C & D & E & F & G & H) S X Y Z1. apply (stop_step _ e (rts s)).
  - rewrite (vstep_plain k i n) by (auto; lia). now rewrite X.
  - now rewrite Y.
Qed.
Lemma slots_none i : instr_slots i = [] -> slots_ok mi i = true.
Proof. intros E. unfold slots_ok. rewrite E. cbn. apply orb_true_r. Qed.
Lemma slots_one i s : instr_slots i = [s] -> slot_ok M s -> slots_ok mi i = true.
Proof.
  intros E H. unfold slots_ok, slot_ok in *. rewrite E. cbn [forallb]. destruct (typed mi); [|reflexivity].
  specialize (H eq_refl). cbn [negb orb]. rewrite andb_true_r. lia.
Qed.

Lemma inside m q : hp s0 <= q <= sp s0 -> I (St m q).
Proof.
  intros Q. split; [apply lay_St|]. pose proof (pd_inside _ _ _ _ _ _ PD) as [? ? ? ?]. pose proof lay_bounds.
  constructor; cbn; lia || assumption.
Qed.

Ltac mkins C := unfold ins; rewrite ?C;
  (split; [lia|split; [lia|split; [lia|split; [discriminate|split; [discriminate|
   split; [unfold Interp_Model.decode; rewrite C; reflexivity|split; [unfold insn_size; rewrite C; reflexivity|exact Logic.I]]]]]]]).

(* The lemmas below: the cells at [k], and what running from [k] does. *)
Lemma go_push m q k p a : 0 <= k -> k + 1 <= ncells -> cell_at code k = 36 -> hp s0 + 4 < q <= sp s0 ->
  Gets (At m q k p a) (At (store32 m (q - 4) p) (q - 4) (k + 1) p a).
Proof.
  intros K1 K2 C Q. apply (go k (PUSHR Pri) 1); [mkins C|now apply slots_none|].
  cbn [exec]. unfold bind, getr, lift. cbn [rts pri alt]. rewrite pushStack_eq by (apply inside; lia).
  change (sp (St m q)) with q. change (hp (St m q)) with (hp s0).
  replace (q <=? hp s0 + 4) with false by lia. reflexivity.
Qed.
Lemma pop_ok m q : hp s0 <= q -> q + 4 <= sp s0 -> popStack (St m q) = Ok (load32 m q) (St m (q + 4)).
Proof.
  intros Q1 Q2. rewrite popStack_eq by (apply inside; lia). change (sp (St m q)) with q. change (stp (St m q)) with (stp s0).
  pose proof lay_bounds. replace (q >=? stp s0) with false by lia. reflexivity.
Qed.
Lemma go_pop_pri m q k p a : 0 <= k -> k + 1 <= ncells -> cell_at code k = 42 -> hp s0 <= q -> q + 4 <= sp s0 ->
  Gets (At m q k p a) (At m (q + 4) (k + 1) (load32 m q) a).
Proof.
  intros K1 K2 C Q1 Q2. apply (go k (POP Pri) 1); [mkins C|now apply slots_none|].
  cbn [exec]. unfold bind, setr, lift. cbn [rts pri alt]. rewrite pop_ok by lia. reflexivity.
Qed.
Lemma go_pop_alt m q k p a : 0 <= k -> k + 1 <= ncells -> cell_at code k = 43 -> hp s0 <= q -> q + 4 <= sp s0 ->
  Gets (At m q k p a) (At m (q + 4) (k + 1) p (load32 m q)).
Proof.
  intros K1 K2 C Q1 Q2. apply (go k (POP Alt) 1); [mkins C|now apply slots_none|].
  cbn [exec]. unfold bind, setr, lift. cbn [rts pri alt]. rewrite pop_ok by lia. reflexivity.
Qed.
Lemma go_swap_alt m q k p a : 0 <= k -> k + 1 <= ncells -> cell_at code k = 132 -> hp s0 < q -> q + 4 <= sp s0 ->
  Gets (At m q k p a) (At (store32 m q a) q (k + 1) p (load32 m q)).
Proof.
  intros K1 K2 C Q1 Q2. apply (go k (SWAP Alt) 1); [mkins C|now apply slots_none|].
  cbn [exec]. unfold bind, getr, setr, lift. cbn [rts pri alt]. rewrite pop_ok by lia. cbn [rts pri alt].
  rewrite pushStack_eq by (apply inside; lia). change (sp (St m (q + 4))) with (q + 4). change (hp (St m (q + 4))) with (hp s0).
  replace (q + 4 <=? hp s0 + 4) with false by lia. replace (q + 4 - 4) with q by lia. reflexivity.
Qed.
Lemma go_const_pri m q k p a v : 0 <= k -> k + size [Emit (const_pri v)] <= ncells -> Laid k [Emit (const_pri v)] -> is_i32 v ->
  Gets (At m q k p a) (At m q (k + size [Emit (const_pri v)]) v a).
Proof.
  intros K1 K2 L V. unfold const_pri in *. destruct (v =? 0) eqn:E.
  - replace v with 0 by lia. cbn [size length] in *. apply laid1 in L as [C _]; [|split; vm_compute; congruence].
    apply (go k (ZEROR Pri) 1); [mkins C|now apply slots_none|reflexivity].
  - cbn [size length] in *. apply laid2 in L as (C & C2 & _); [|split; vm_compute; congruence|assumption].
    apply (go k (CONST Pri v) 2); [|now apply slots_none|reflexivity].
    rewrite <- C2. mkins C.
Qed.
Lemma go_const_alt m q k p a v : 0 <= k -> k + size [Emit (const_alt v)] <= ncells -> Laid k [Emit (const_alt v)] -> is_i32 v ->
  Gets (At m q k p a) (At m q (k + size [Emit (const_alt v)]) p v).
Proof.
  intros K1 K2 L V. unfold const_alt in *. destruct (v =? 0) eqn:E.
  - replace v with 0 by lia. cbn [size length] in *. apply laid1 in L as [C _]; [|split; vm_compute; congruence].
    apply (go k (ZEROR Alt) 1); [mkins C|now apply slots_none|reflexivity].
  - cbn [size length] in *. apply laid2 in L as (C & C2 & _); [|split; vm_compute; congruence|assumption].
    apply (go k (CONST Alt v) 2); [|now apply slots_none|reflexivity].
    rewrite <- C2. mkins C.
Qed.
Lemma go_xchg m q k p a : 0 <= k -> k + 1 <= ncells -> cell_at code k = 35 -> Gets (At m q k p a) (At m q (k + 1) a p).
Proof. intros K1 K2 C. apply (go k XCHG 1); [mkins C|now apply slots_none|reflexivity]. Qed.
Lemma go_move m q k p a : 0 <= k -> k + 1 <= ncells -> cell_at code k = 33 -> Gets (At m q k p a) (At m q (k + 1) a a).
Proof. intros K1 K2 C. apply (go k (MOVE Pri) 1); [mkins C|now apply slots_none|reflexivity]. Qed.
Lemma go_and m q k p a : 0 <= k -> k + 1 <= ncells -> cell_at code k = 81 -> Gets (At m q k p a) (At m q (k + 1) (Z.land p a) a).
Proof. intros K1 K2 C. apply (go k AND 1); [mkins C|now apply slots_none|reflexivity]. Qed.
Lemma sarith_wrap z s : sarith false z s = Ok (wrap32 z) s.
Proof. rewrite sarith_ok. destruct (is_i32b z) eqn:E; [|reflexivity]. apply is_i32b_spec in E. now rewrite wrap32_id. Qed.
Lemma go_inc m q k p a (up : bool) : 0 <= k -> k + 1 <= ncells -> cell_at code k = (if up then 107 else 112) ->
  Gets (At m q k p a) (At m q (k + 1) (wrap32 (if up then p + 1 else p - 1)) a).
Proof.
  intros K1 K2 C. destruct up.
  - apply (go k (INCR Pri) 1); [mkins C|now apply slots_none|]. cbn [exec]. unfold bind, getr, setr. cbn [rts pri alt]. now rewrite sarith_wrap.
  - apply (go k (DECR Pri) 1); [mkins C|now apply slots_none|]. cbn [exec]. unfold bind, getr, setr. cbn [rts pri alt]. now rewrite sarith_wrap.
Qed.
Lemma go_add_c m q k p a c : 0 <= k -> k + 2 <= ncells -> cell_at code k = 87 -> cell_at code (k + 1) = c ->
  Gets (At m q k p a) (At m q (k + 2) (wrap32 (p + c)) a).
Proof.
  intros K1 K2 C C2. apply (go k (ADD_C c) 2); [rewrite <- C2; mkins C|now apply slots_none|].
  cbn [exec]. unfold bind, getr, setr. cbn [rts pri alt]. now rewrite sarith_wrap.
Qed.
Lemma go_idxaddr m q k p a : 0 <= k -> k + 1 <= ncells -> cell_at code k = 27 -> Gets (At m q k p a) (At m q (k + 1) (wrap32 (a + p * 4)) a).
Proof. intros K1 K2 C. apply (go k IDXADDR 1); [mkins C|now apply slots_none|reflexivity]. Qed.
Lemma go_unary m q k p a op : 0 <= k -> k + 1 <= ncells -> Laid k [Emit (un_code false op)] ->
  Gets (At m q k p a) (At m q (k + 1) (umeans op p) a).
Proof.
  intros K1 K2 L. destruct op; cbn [un_code] in L; apply laid1 in L as [C _]; try (split; vm_compute; congruence).
  - apply (go k INVERT 1); [mkins C|now apply slots_none|]. cbn [exec]. unfold bind, getr, setr. cbn [rts pri alt umeans].
    replace (- p - 1) with (Z.lnot p) by (unfold Z.lnot; lia). reflexivity.
  - apply (go k NOT 1); [mkins C|now apply slots_none|reflexivity].
  - apply (go k NEG 1); [mkins C|now apply slots_none|]. cbn [exec]. unfold bind, getr, setr. cbn [rts pri alt]. now rewrite sarith_wrap.
Qed.
Lemma go_const_label m q k p a v : 0 <= k -> k + 2 <= ncells -> cell_at code k = 11 -> cell_at code (k + 1) = v ->
  Gets (At m q k p a) (At m q (k + 2) v a).
Proof. intros K1 K2 C C2. apply (go k (CONST Pri v) 2); [rewrite <- C2; mkins C|now apply slots_none|reflexivity]. Qed.
(* Loads *)
Lemma get_ok m q x : reachable M x 4 -> q <= sp s0 -> getCellValue x (St m q) = Ok (load32 m x) (St m q).
Proof. intros R Q. rewrite getCellValue_ok; [reflexivity|apply lay_St|now apply script_St]. Qed.
Lemma set_ok m q x v : reachable M x 4 -> q <= sp s0 -> setCellValue x v (St m q) = Ok tt (St (store32 m x v) q).
Proof. intros R Q. rewrite setCellValue_ok; [reflexivity|apply lay_St|now apply script_St]. Qed.
Lemma go_load m q k p a x : 0 <= k -> k + 2 <= ncells -> cell_at code k = 1 -> cell_at code (k + 1) = x ->
  reachable M x 4 -> q <= sp s0 -> Gets (At m q k p a) (At m q (k + 2) (load32 m x) a).
Proof.
  intros K1 K2 C C2 R Q. apply (go k (LOAD Pri x) 2); [rewrite <- C2; mkins C|now apply slots_none|].
  cbn [exec]. unfold bind, getr, setr, lift. cbn [rts pri alt]. now rewrite get_ok.
Qed.
Lemma go_load_s m q k p a s : 0 <= k -> k + 2 <= ncells -> cell_at code k = 3 -> cell_at code (k + 1) = s -> slot_ok M s ->
  reachable M (slot_adr M s) 4 -> q <= sp s0 -> Gets (At m q k p a) (At m q (k + 2) (load32 m (slot_adr M s)) a).
Proof.
  intros K1 K2 C C2 S R Q. apply (go k (LOAD_S Pri s) 2); [rewrite <- C2; mkins C|now apply (slots_one _ s)|].
  cbn [exec]. unfold bind, getr, setr, lift. cbn [rts pri alt]. rewrite getFrameValue_eq.
  change (wrap32 (frm (St m q) + StackOffset mi s)) with (slot_adr M s). now rewrite get_ok.
Qed.
Lemma go_lref_s m q k p a s : 0 <= k -> k + 2 <= ncells -> cell_at code k = 7 -> cell_at code (k + 1) = s -> slot_ok M s ->
  reachable M (slot_adr M s) 4 -> reachable M (load32 m (slot_adr M s)) 4 -> q <= sp s0 ->
  Gets (At m q k p a) (At m q (k + 2) (load32 m (load32 m (slot_adr M s))) a).
Proof.
  intros K1 K2 C C2 S R R2 Q. apply (go k (LREF_S Pri s) 2); [rewrite <- C2; mkins C|now apply (slots_one _ s)|].
  cbn [exec]. unfold bind, getr, setr, lift. cbn [rts pri alt]. rewrite getFrameValue_eq.
  change (wrap32 (frm (St m q) + StackOffset mi s)) with (slot_adr M s). rewrite get_ok by assumption. cbn [rts pri alt]. now rewrite get_ok.
Qed.
Lemma go_load_i m q k p a : 0 <= k -> k + 1 <= ncells -> cell_at code k = 9 -> reachable M p 4 -> q <= sp s0 ->
  Gets (At m q k p a) (At m q (k + 1) (load32 m p) a).
Proof.
  intros K1 K2 C R Q. apply (go k LOAD_I 1); [mkins C|now apply slots_none|].
  cbn [exec]. unfold bind, getr, setr, lift. cbn [rts pri alt]. now rewrite get_ok.
Qed.
(* Stores *)
Lemma go_stor m q k p a x : 0 <= k -> k + 2 <= ncells -> cell_at code k = 15 -> cell_at code (k + 1) = x ->
  reachable M x 4 -> q <= sp s0 -> Gets (At m q k p a) (At (store32 m x p) q (k + 2) p a).
Proof.
  intros K1 K2 C C2 R Q. apply (go k (STOR x Pri) 2); [rewrite <- C2; mkins C|now apply slots_none|].
  cbn [exec]. unfold bind, getr, setr, lift. cbn [rts pri alt]. now rewrite set_ok.
Qed.
Lemma go_stor_s m q k p a s : 0 <= k -> k + 2 <= ncells -> cell_at code k = 17 -> cell_at code (k + 1) = s -> slot_ok M s ->
  reachable M (slot_adr M s) 4 -> q <= sp s0 -> Gets (At m q k p a) (At (store32 m (slot_adr M s) p) q (k + 2) p a).
Proof.
  intros K1 K2 C C2 S R Q. apply (go k (STOR_S s Pri) 2); [rewrite <- C2; mkins C|now apply (slots_one _ s)|].
  cbn [exec]. unfold bind, getr, setr, lift. cbn [rts pri alt]. rewrite setFrameValue_eq.
  change (wrap32 (frm (St m q) + StackOffset mi s)) with (slot_adr M s). now rewrite set_ok.
Qed.
Lemma go_sref_s m q k p a s : 0 <= k -> k + 2 <= ncells -> cell_at code k = 21 -> cell_at code (k + 1) = s -> slot_ok M s ->
  reachable M (slot_adr M s) 4 -> reachable M (load32 m (slot_adr M s)) 4 -> q <= sp s0 ->
  Gets (At m q k p a) (At (store32 m (load32 m (slot_adr M s)) p) q (k + 2) p a).
Proof.
  intros K1 K2 C C2 S R R2 Q. apply (go k (SREF_S s Pri) 2); [rewrite <- C2; mkins C|now apply (slots_one _ s)|].
  cbn [exec]. unfold bind, getr, setr, lift. cbn [rts pri alt]. rewrite getFrameValue_eq.
  change (wrap32 (frm (St m q) + StackOffset mi s)) with (slot_adr M s). rewrite get_ok by assumption. cbn [rts pri alt]. now rewrite set_ok.
Qed.
Lemma go_stor_i m q k p a : 0 <= k -> k + 1 <= ncells -> cell_at code k = 23 -> reachable M a 4 -> q <= sp s0 ->
  Gets (At m q k p a) (At (store32 m a p) q (k + 1) p a).
Proof.
  intros K1 K2 C R Q. apply (go k STOR_I 1); [mkins C|now apply slots_none|].
  cbn [exec]. unfold bind, getr, setr, lift. cbn [rts pri alt]. now rewrite set_ok.
Qed.
(* Bounds *)
Lemma bounds_exec n p s a : is_i32 p -> 0 <= n < two31 ->
  Exec (BOUNDS n) (mkIst s p a) = if (p <? 0) || (n <? p) then Fail ARRAY_BOUNDS (mkIst s p a) else Ok tt (mkIst s p a).
Proof.
  intros P N. cbn [exec]. unfold bind, getr. cbn [rts pri alt].
  replace (u32 n) with n by (unfold u32; rewrite Z.mod_small; [reflexivity|unfold two31, two32 in *; lia]).
  unfold u64. unfold is_i32 in P. destruct (p <? 0) eqn:E.
  - cbn [orb]. assert (X : p mod two64 = p + two64).
    { symmetry. apply Z.mod_unique with (-1); unfold two31, two64 in *; lia. }
    rewrite X. replace (p + two64 >? n) with true by (unfold two31, two64 in *; lia). reflexivity.
  - cbn [orb]. rewrite (Z.mod_small p) by (unfold two31, two64 in *; lia).
    rewrite Z.gtb_ltb. destruct (n <? p); reflexivity.
Qed.
Lemma ins_bounds k n : 0 <= k -> k + 2 <= ncells -> cell_at code k = 121 -> cell_at code (k + 1) = n -> ins k (BOUNDS n) 2.
Proof. intros K1 K2 C C2. rewrite <- C2. mkins C. Qed.
(* Operators: the right operand in PRI, the left one in ALT. *)
Lemma ins_op k op : 0 <= k -> k + 1 <= ncells -> cell_at code k = int32_op op -> ins k (op_instr op) 1.
Proof. intros K1 K2 C. destruct op; cbn [int32_op op_instr] in *; mkins C. Qed.
Lemma op_slots op : slots_ok mi (op_instr op) = true.
Proof. apply slots_none. destruct op; reflexivity. Qed.
Lemma go_op m q k l r op v : 0 <= k -> k + size [Emit (op_code op)] <= ncells -> Laid k [Emit (op_code op)] -> is_i32 l -> is_i32 r ->
  means op l r = OVal v -> Gets (At m q k r l) (At m q (k + size [Emit (op_code op)]) v (if swaps op then r else l)).
Proof.
  intros K1 K2 L Hl Hr E. pose proof (op_means (m_fe M) (p_natives (m_prog M)) mi op l r (St m q) Hl Hr) as X. rewrite E in X.
  assert (IO : is_i32 (int32_op op)) by (destruct op; split; vm_compute; congruence).
  unfold op_code in *. destruct (swaps op); cbn [app size length] in *.
  - apply laid2 in L as (C & C2 & _); [|split; vm_compute; congruence|assumption].
    eapply gets_trans; [apply go_xchg; auto; lia|].
    replace (k + (Z.of_nat 2 + 0)) with (k + 1 + 1) by lia.
    apply (go _ (op_instr op) 1); [apply ins_op; auto; lia|apply op_slots|exact X].
  - apply laid1 in L as (C & _); [|assumption]. replace (k + (Z.of_nat 1 + 0)) with (k + 1) by lia.
    apply (go _ (op_instr op) 1); [apply ins_op; auto; lia|apply op_slots|exact X].
Qed.
Lemma stop_op m q k l r op e st : 0 <= k -> k + size [Emit (op_code op)] <= ncells -> Laid k [Emit (op_code op)] -> is_i32 l -> is_i32 r ->
  means op l r = OErr e -> Holds st m -> Stops (At m q k r l) e st.
Proof.
  intros K1 K2 L Hl Hr E H. pose proof (op_means (m_fe M) (p_natives (m_prog M)) mi op l r (St m q) Hl Hr) as X. rewrite E in X.
  assert (IO : is_i32 (int32_op op)) by (destruct op; split; vm_compute; congruence).
  unfold op_code in *. destruct (swaps op); cbn [app size length] in *.
  - apply laid2 in L as (C & C2 & _); [|split; vm_compute; congruence|assumption].
    eapply gets_stops; [apply go_xchg; auto; lia|].
    eapply (go_fail _ (op_instr op) 1); [apply ins_op; auto; lia|apply op_slots|exact X|reflexivity|exact H].
  - apply laid1 in L as (C & _); [|assumption].
    eapply (go_fail _ (op_instr op) 1); [apply ins_op; auto; lia|apply op_slots|exact X|reflexivity|exact H].
Qed.
(* Jumps *)
Definition good (t : nat) : Prop := exists kt, wh t = 4 * kt /\ 0 <= kt < ncells.
Lemma good_i32 t : good t -> 4 * ncells < two31 -> is_i32 (wh t).
Proof. intros (kt & E & B) N. unfold is_i32. lia. Qed.
End Machine.
