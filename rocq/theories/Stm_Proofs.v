(* The code generated for statements does what they do. *)
From Verif Require Import Base Base_Proofs Rt_Model Rt_Spec Rt_Proofs Interp_Model Alu_Spec Alu_Proofs
  Fold_Model Fold_Spec Fold_Proofs Gen_Model Gen_Spec Gen_Steps Gen_Proofs Stm_Model Stm_Spec Stm_Flow.
From Coq Require Import ZifyBool Lia.
Ltac Zify.zify_post_hook ::= idtac.

Lemma sdepths : (forall s, 0 <= sdepth s) /\ (forall b, 0 <= sdepth_l b) /\ (forall c, 0 <= sdepth_c c).
Proof.
  apply ssc_ind; intros; cbn [sdepth sdepth_l sdepth_c]; try apply depth_nonneg; try lia;
  repeat match goal with
  | |- context [depth ?e] => let H := fresh in assert (H := depth_nonneg e); generalize dependent (depth e); intros
  | i : option expr |- _ => destruct i; cbn [depth_o]
  end; lia.
Qed.

(* The label a switch on [v] goes to. *)
Fixpoint pick (x d : nat) (cs : cases) (n : nat) (v : Z) : nat :=
  match cs with
  | KEnd => x
  | KDefault _ => d
  | KCase vs s r => if existsb (Z.eqb v) vs then n else pick x d r (n + 1 + ns s) v
  end.
Definition lookup (v : Z) (t : list (Z * nat)) : option nat :=
  match find (fun c => fst c =? v) t with Some c => Some (snd c) | None => None end.
Lemma lookup_emplace v l t w : ~ In v (map fst t) -> lookup w (emplace v l t) = if v =? w then Some l else lookup w t.
Proof.
  unfold lookup. induction t as [|[u l'] t IH]; cbn [emplace find map In fst snd].
  - intros _. destruct (v =? w); reflexivity.
  - intros N. destruct (v <? u).
    + cbn [find fst snd]. destruct (v =? w); reflexivity.
    + replace (v =? u) with false by lia. cbn [find fst snd]. destruct (u =? w) eqn:E.
      * replace (v =? w) with false by lia. reflexivity.
      * apply IH. tauto.
Qed.
Lemma in_emplace v l t w : In w (map fst (emplace v l t)) -> w = v \/ In w (map fst t).
Proof.
  induction t as [|[u l'] t IH]; cbn [emplace map In fst]; [intuition|].
  destruct (v <? u); [cbn [map In fst]; intuition|]. destruct (v =? u); [auto|]. cbn [map In fst]. intuition.
Qed.
Lemma lookup_fold n vs : forall t w, NoDup vs -> (forall v, In v vs -> ~ In v (map fst t)) ->
  lookup w (fold_left (fun t v => emplace v n t) vs t) = (if existsb (Z.eqb w) vs then Some n else lookup w t) /\
  forall u, In u (map fst (fold_left (fun t v => emplace v n t) vs t)) -> In u vs \/ In u (map fst t).
Proof.
  induction vs as [|v vs IH]; intros t w ND D; cbn [fold_left existsb].
  - split; [reflexivity|auto].
  - inversion ND as [|? ? Nv ND']; subst. destruct (IH (emplace v n t) w ND') as [E1 E2].
    { intros u U X. apply in_emplace in X as [-> | X]; [contradiction|]. exact (D u (or_intror U) X). }
    split.
    + rewrite E1, lookup_emplace by (apply D; now left). rewrite (Z.eqb_sym w v).
      destruct (existsb (Z.eqb w) vs); [rewrite orb_true_r; reflexivity|]. rewrite orb_false_r. reflexivity.
    + intros u U. apply E2 in U as [U|U]; [left; now right|]. apply in_emplace in U as [-> | U]; [left; now left|now right].
Qed.
Lemma nodup_app (a b : list Z) : NoDup (a ++ b) -> NoDup a /\ NoDup b /\ forall v, In v a -> ~ In v b.
Proof.
  induction a as [|x a IH]; cbn [app]; intros N; [split; [constructor|split; [exact N|intros v []]]|].
  inversion N as [|? ? N1 N2]; subst. destruct (IH N2) as (A & B & C). split; [|split; [exact B|]].
  - constructor; [|exact A]. intros X. apply N1. apply in_or_app. now left.
  - intros v [-> | V]; [|now apply C]. intros X. apply N1. apply in_or_app. now right.
Qed.
Lemma lookup_table x d cs : forall n t w, NoDup (case_values cs) -> (forall v, In v (case_values cs) -> ~ In v (map fst t)) ->
  match lookup w t with Some l => Some l | None => lookup w (case_table cs n t) end = lookup w (case_table cs n t) /\
  (lookup w t = None -> match lookup w (case_table cs n t) with Some l => l | None => if has_default cs then d else x end = pick x d cs n w).
Proof.
  induction cs as [|s|vs s r IH]; intros n t w ND D; cbn [case_values case_table pick has_default] in *.
  - split; [destruct (lookup w t); reflexivity|]. now intros ->.
  - split; [destruct (lookup w t); reflexivity|]. now intros ->.
  - destruct (nodup_app vs (case_values r) ND) as (NDv & NDr & DJ).
    destruct (lookup_fold n vs t w NDv) as [E1 E2]; [intros v V; apply D; apply in_or_app; now left|].
    destruct (IH (n + 1 + ns s)%nat (fold_left (fun t v => emplace v n t) vs t) w NDr) as [A B].
    { intros v V X. apply E2 in X as [X|X]; [exact (DJ v X V)|]. exact (D v (in_or_app _ _ _ (or_intror V)) X). }
    rewrite E1 in A, B. split.
    + destruct (lookup w t) as [l|] eqn:Lt; [|reflexivity]. rewrite <- A.
      destruct (existsb (Z.eqb w) vs) eqn:Ex; [|reflexivity]. exfalso.
      apply existsb_exists in Ex as (u & U & Eu). apply Z.eqb_eq in Eu. subst u.
      unfold lookup in Lt. destruct (find (fun c => fst c =? w) t) as [[u l0]|] eqn:Fi; [|discriminate].
      apply find_some in Fi as [Fi Fe]. cbn [fst] in Fe. apply (D w (in_or_app _ _ _ (or_introl U))). apply in_map_iff. exists (u, l0). split; [cbn; lia|exact Fi].
    + intros Lt. rewrite Lt in A, B. destruct (existsb (Z.eqb w) vs) eqn:Ex; [now rewrite <- A|]. now apply B.
Qed.

Section Machine.
Variable M : machine.
Variable sc : scope.
Variable obase : nat -> Z.
Variable wh : nat -> Z.
Variable glab : nat -> nat.
Variable ga : nat -> Z.
Hypothesis PD : placed_data M sc obase wh glab ga.
Hypothesis TMO : forall c, m_tmo M c = false.
Notation code := (p_code (m_prog M)).
Notation ncells := (Z.of_nat (length (p_code (m_prog M)))).
Hypothesis SMALL : 4 * ncells < two31.
Notation s0 := (m_rt M).
Notation mi := (m_meth M).
Notation At := (at_ M).
Notation St m q := (set_sp q (set_mem m (m_rt M))).
Notation Gets := (gets M).
Notation Holds := (holds M sc obase).
Notation Only := (only_data M sc obase).
Notation Adr := (adr obase).
Notation Live := (live sc).
Notation Stops := (stops M sc obase).
Notation Laid := (laid code wh).
Notation Gen := (gen glab ga).
Notation Reaches := (reaches M sc obase).
Notation Strictly := (strictly M).
Notation Behaves := (behaves M sc obase).
Local Notation vrun_app := (Gen_Steps.vrun_app M).
Local Notation gets_refl := (Gen_Steps.gets_refl M).
Local Notation gets_trans := (Gen_Steps.gets_trans M).
Local Notation gets_step := (Gen_Steps.gets_step M).
Local Notation gets_stops := (Gen_Steps.gets_stops M sc obase).
Local Notation stop_step := (Gen_Steps.stop_step M sc obase).
Local Notation vstep_plain := (Gen_Steps.vstep_plain M).
Local Notation vstep_jump := (Gen_Steps.vstep_jump M TMO).
Local Notation vstep_jcmp := (Gen_Steps.vstep_jcmp M TMO).
Local Notation laid_app := (Gen_Steps.laid_app M wh).
Local Notation laid1 := (Gen_Steps.laid1 M wh).
Local Notation laid2 := (Gen_Steps.laid2 M wh).
Local Notation laid_label := (Gen_Steps.laid_label M wh).
Local Notation laid_bind := (Gen_Steps.laid_bind M wh).
Local Notation lay_bounds := (Gen_Steps.lay_bounds M sc obase wh glab ga PD).
Local Notation lay_St := (Gen_Steps.lay_St M sc obase wh glab ga PD).
Local Notation script_St := (Gen_Steps.script_St M).
Local Notation reach_i32 := (Gen_Steps.reach_i32 M sc obase wh glab ga PD).
Local Notation live_reach := (Gen_Steps.live_reach M sc obase wh glab ga PD).
Local Notation live_apart := (Gen_Steps.live_apart M sc obase wh glab ga PD).
Local Notation pointer_apart := (Gen_Steps.pointer_apart M sc obase wh glab ga PD).
Local Notation holds_i32 := (Gen_Steps.holds_i32 M sc obase).
Local Notation only_refl := (Gen_Steps.only_refl M sc obase).
Local Notation only_trans := (Gen_Steps.only_trans M sc obase).
Local Notation only_mono := (Gen_Steps.only_mono M sc obase).
Local Notation only_push := (Gen_Steps.only_push M sc obase).
Local Notation only_store := (Gen_Steps.only_store M sc obase).
Local Notation only_temp := (Gen_Steps.only_temp M sc obase wh glab ga PD).
Local Notation holds_only := (Gen_Steps.holds_only M sc obase wh glab ga PD).
Local Notation holds_push := (Gen_Steps.holds_push M sc obase wh glab ga PD).
Local Notation holds_update := (Gen_Steps.holds_update M sc obase wh glab ga PD).
Local Notation ins := (Gen_Steps.ins M).
Local Notation go := (Gen_Steps.go M).
Local Notation go_fail := (Gen_Steps.go_fail M sc obase).
Local Notation slots_none := (Gen_Steps.slots_none M).
Local Notation slots_one := (Gen_Steps.slots_one M).
Local Notation inside := (Gen_Steps.inside M sc obase wh glab ga PD).
Local Notation go_push := (Gen_Steps.go_push M sc obase wh glab ga PD).
Local Notation pop_ok := (Gen_Steps.pop_ok M sc obase wh glab ga PD).
Local Notation go_pop_pri := (Gen_Steps.go_pop_pri M sc obase wh glab ga PD).
Local Notation go_pop_alt := (Gen_Steps.go_pop_alt M sc obase wh glab ga PD).
Local Notation go_swap_alt := (Gen_Steps.go_swap_alt M sc obase wh glab ga PD).
Local Notation go_const_pri := (Gen_Steps.go_const_pri M wh).
Local Notation go_const_alt := (Gen_Steps.go_const_alt M wh).
Local Notation go_xchg := (Gen_Steps.go_xchg M).
Local Notation go_move := (Gen_Steps.go_move M).
Local Notation go_and := (Gen_Steps.go_and M).
Local Notation go_inc := (Gen_Steps.go_inc M).
Local Notation go_add_c := (Gen_Steps.go_add_c M).
Local Notation go_idxaddr := (Gen_Steps.go_idxaddr M).
Local Notation go_unary := (Gen_Steps.go_unary M wh).
Local Notation go_const_label := (Gen_Steps.go_const_label M).
Local Notation get_ok := (Gen_Steps.get_ok M sc obase wh glab ga PD).
Local Notation set_ok := (Gen_Steps.set_ok M sc obase wh glab ga PD).
Local Notation go_load := (Gen_Steps.go_load M sc obase wh glab ga PD).
Local Notation go_load_s := (Gen_Steps.go_load_s M sc obase wh glab ga PD).
Local Notation go_lref_s := (Gen_Steps.go_lref_s M sc obase wh glab ga PD).
Local Notation go_load_i := (Gen_Steps.go_load_i M sc obase wh glab ga PD).
Local Notation go_stor := (Gen_Steps.go_stor M sc obase wh glab ga PD).
Local Notation go_stor_s := (Gen_Steps.go_stor_s M sc obase wh glab ga PD).
Local Notation go_sref_s := (Gen_Steps.go_sref_s M sc obase wh glab ga PD).
Local Notation go_stor_i := (Gen_Steps.go_stor_i M sc obase wh glab ga PD).
Local Notation bounds_exec := (Gen_Steps.bounds_exec M).
Local Notation ins_bounds := (Gen_Steps.ins_bounds M).
Local Notation ins_op := (Gen_Steps.ins_op M).
Local Notation op_slots := (Gen_Steps.op_slots M).
Local Notation go_op := (Gen_Steps.go_op M wh).
Local Notation stop_op := (Gen_Steps.stop_op M sc obase wh).
Local Notation good := (Gen_Steps.good M wh).
Local Notation good_i32 := (Gen_Steps.good_i32 M wh).
Local Notation step_jump := (Gen_Proofs.step_jump M wh TMO SMALL).
Local Notation go_jump := (Gen_Proofs.go_jump M wh TMO SMALL).
Local Notation r_val := (Gen_Proofs.r_val M sc obase).
Local Notation r_go := (Gen_Proofs.r_go M sc obase).
Local Notation r_go0 := (Gen_Proofs.r_go0 M sc obase).
Local Notation r_post := (Gen_Proofs.r_post M sc obase).
Local Notation strictly_gets := (Gen_Proofs.strictly_gets M).
Local Notation gets_strictly := (Gen_Proofs.gets_strictly M).
Local Notation strictly_gets_too := (Gen_Proofs.strictly_gets_too M).

(* ---- Steps ---- *)
Ltac mkins C := unfold Gen_Steps.ins; rewrite ?C;
  (split; [lia|split; [lia|split; [lia|split; [discriminate|split; [discriminate|
   split; [unfold Interp_Model.decode; rewrite C; reflexivity|split; [unfold insn_size; rewrite C; reflexivity|exact Logic.I]]]]]]]).
Lemma go_brk m q k p a : 0 <= k -> k + 1 <= ncells -> cell_at code k = 137 -> Gets (At m q k p a) (At m q (k + 1) p a).
Proof. intros K1 K2 C. apply (go k BREAK 1); [mkins C|now apply slots_none|reflexivity]. Qed.
Lemma go_stor_s_c m q k p a s v : 0 <= k -> k + 3 <= ncells -> cell_at code k = 19 -> cell_at code (k + 1) = s -> cell_at code (k + 2) = v -> slot_ok M s ->
  reachable M (slot_adr M s) 4 -> q <= sp s0 -> Gets (At m q k p a) (At (store32 m (slot_adr M s) v) q (k + 3) p a).
Proof.
  intros K1 K2 C C2 C3 S R Q. apply (go k (STOR_S_C s v) 3); [rewrite <- C2, <- C3; mkins C|now apply (slots_one _ s)|].
  cbn [Interp_Model.exec]. unfold lift. cbn [rts pri alt]. rewrite setFrameValue_eq.
  change (wrap32 (frm (St m q) + StackOffset mi s)) with (slot_adr M s). now rewrite set_ok.
Qed.
Lemma go_zero_s m q k p a s : 0 <= k -> k + 2 <= ncells -> cell_at code k = 92 -> cell_at code (k + 1) = s -> slot_ok M s ->
  reachable M (slot_adr M s) 4 -> q <= sp s0 -> Gets (At m q k p a) (At (store32 m (slot_adr M s) 0) q (k + 2) p a).
Proof.
  intros K1 K2 C C2 S R Q. apply (go k (ZERO_S s) 2); [rewrite <- C2; mkins C|now apply (slots_one _ s)|].
  cbn [Interp_Model.exec]. unfold lift. cbn [rts pri alt]. rewrite setFrameValue_eq.
  change (wrap32 (frm (St m q) + StackOffset mi s)) with (slot_adr M s). now rewrite set_ok.
Qed.
Lemma go_switch m q k p a t n kt : 0 <= k -> k + 2 <= ncells -> cell_at code k = 129 -> cell_at code (k + 1) = 4 * t ->
  0 <= t -> cell_at code t = 130 -> cell_at code (t + 1) = n -> 0 <= n -> t + 3 + 2 * n <= ncells ->
  match find_case code (t + 3) (Z.to_nat n) p with Some o => o | None => cell_at code (t + 2) end = 4 * kt -> 0 <= kt < ncells ->
  Gets (At m q k p a) (At m q kt p a).
Proof.
  intros K1 K2 C C1 T1 T2 T3 N1 N2 F B. apply (gets_step false).
  unfold vstep, step, Interp_Model.ncells, at_. cbn [c_cur c_rt c_callers a_pc a_meth a_pri a_alt].
  replace ((k <? 0) || (ncells <? k)) with false by lia. replace (k =? ncells) with false by lia.
  rewrite C. change ((129 =? OP_PROC) || (129 =? OP_ENDPROC)) with false. cbv iota.
  replace (Interp_Model.decode code k) with (Some (SWITCH (4 * t))) by (unfold Interp_Model.decode; rewrite C, C1; reflexivity).
  replace (insn_size code k) with 2 by (unfold insn_size; rewrite C; reflexivity).
  replace (ncells <? k + 2) with false by lia. cbv iota zeta.
  replace (4 * t / 4) with t by (rewrite Z.mul_comm; symmetry; apply Z_div_mult; lia).
  rewrite T2. replace ((t <? 0) || (ncells <? t + 3) || negb (130 =? OP_CASETBL)) with false by (change (negb (130 =? OP_CASETBL)) with false; lia).
  rewrite T3. replace ((n <? 0) || (ncells <? t + 3 + 2 * n)) with false by lia.
  rewrite F. unfold do_jump. cbn [c_cur c_rt c_callers a_pc a_meth a_pri a_alt andb]. unfold Interp_Model.ncells.
  replace (4 * kt mod 4) with 0 by (rewrite Z.mul_comm; symmetry; apply Z_mod_mult).
  replace ((4 * kt <? 0) || negb (0 =? 0) || (ncells * 4 <=? 4 * kt)) with false by (change (negb (0 =? 0)) with false; lia).
  replace (4 * kt / 4) with kt by (rewrite Z.mul_comm; symmetry; apply Z_div_mult; lia). reflexivity.
Qed.

(* ---- Behaviours ---- *)
Lemma vrun_prefix a : forall b c c', vrun M (a + b) c = inr c' -> exists c1, vrun M a c = inr c1.
Proof.
  unfold vrun. induction a as [|a IH]; intros b c c'; cbn [run Nat.add]; [eauto|].
  destruct (step _ _ _ _ c); try discriminate. apply IH.
Qed.
Lemma runs_less n n' c : (n' <= n)%nat -> (exists c', vrun M n c = inr c') -> exists c', vrun M n' c = inr c'.
Proof. intros L [c' H]. replace n with (n' + (n - n'))%nat in H by lia. exact (vrun_prefix _ _ _ _ H). Qed.
Lemma runs_after n c c1 : Gets c c1 -> (exists c', vrun M n c1 = inr c') -> exists c', vrun M n c = inr c'.
Proof.
  intros [g G] [c' H]. rewrite <- (vrun_app g n _ _ G) in H. apply (runs_less (g + n)); [lia|eauto].
Qed.
Lemma runs_strictly n c c1 : Strictly c c1 -> (exists c', vrun M n c1 = inr c') -> exists c', vrun M (S n) c = inr c'.
Proof.
  intros [g G] [c' H]. rewrite <- (vrun_app _ n _ _ G) in H. apply (runs_less (S g + n)); [lia|eauto].
Qed.
Lemma s_less n n' m c q r P : (n' <= n)%nat -> Behaves n m c q r P -> Behaves n' m c q r P.
Proof. intros L H. destruct r; cbn [behaves] in *; auto. exact (runs_less n n' c L H). Qed.
Lemma s_go n m1 c1 m c q r P : Gets c c1 -> Only q m m1 -> Behaves n m1 c1 q r P -> Behaves n m c q r P.
Proof.
  intros G O H. destruct r as [o st|e st| |]; cbn [behaves] in *; auto.
  - destruct H as (m' & c' & G' & Po & Hh & O'). exists m', c'. split; [exact (gets_trans _ _ _ G G')|]. split; [exact Po|]. split; [exact Hh|].
    exact (only_trans q m m1 m' O O').
  - exact (gets_stops _ _ _ _ G H).
  - exact (runs_after n c c1 G H).
Qed.
Lemma s_strict n m1 c1 m c q r P : Strictly c c1 -> Only q m m1 -> Behaves n m1 c1 q r P -> Behaves (S n) m c q r P.
Proof.
  intros G O H. destruct r as [o st|e st| |] eqn:E; cbn [behaves] in *; auto.
  - destruct H as (m' & c' & G' & Po & Hh & O'). exists m', c'. split; [exact (gets_trans _ _ _ (strictly_gets_too _ _ G) G')|]. split; [exact Po|]. split; [exact Hh|].
    exact (only_trans q m m1 m' O O').
  - exact (gets_stops _ _ _ _ (strictly_gets_too _ _ G) H).
  - exact (runs_strictly n c c1 G H).
Qed.
Lemma s_fin n m c q o st (P : okind -> _ -> _ -> Prop) : P o m c -> Holds st m -> Behaves n m c q (Fin o st) P.
Proof. intros Po H. exists m, c. split; [apply gets_refl|]. split; [exact Po|]. split; [exact H|apply only_refl]. Qed.
Lemma s_eval n m c q (r : ev Z) k (P : Z -> _ -> _ -> Prop) Q : Reaches m c q r P ->
  (forall v st m' c', r = Val v st -> Gets c c' -> P v m' c' -> Holds st m' -> Behaves n m' c' q (k v st) Q) ->
  Behaves n m c q (seval r k) Q.
Proof.
  intros R K. destruct r as [v st|e st|]; cbn [reaches seval behaves] in *; auto.
  destruct R as (m' & c' & G & Pv & H & O). apply (s_go n m' c'); auto.
Qed.
Lemma s_then n m c q (r : sres) k (P : okind -> _ -> _ -> Prop) Q : Behaves n m c q r P ->
  (forall o st m' c', r = Fin o st -> Gets c c' -> P o m' c' -> Holds st m' -> Behaves n m' c' q (k o st) Q) ->
  Behaves n m c q (sthen r k) Q.
Proof.
  intros R K. destruct r as [o st|e st| |]; cbn [behaves sthen] in *; auto.
  destruct R as (m' & c' & G & Po & H & O). apply (s_go n m' c'); auto.
Qed.
Lemma s_post n m c q r (P Q : okind -> _ -> _ -> Prop) : Behaves n m c q r P ->
  (forall o st m' c', r = Fin o st -> Gets c c' -> P o m' c' -> Q o m' c') -> Behaves n m c q r Q.
Proof.
  intros R K. destruct r as [o st|e st| |]; cbn [behaves] in *; auto.
  destruct R as (m' & c' & G & Po & H & O). exists m', c'. split; [exact G|]. split; [exact (K o st m' c' eq_refl G Po)|]. auto.
Qed.

(* ---- Where a statement ends ---- *)
Definition at_cell (q k : Z) (m' : Z -> Z) (c' : config) : Prop := exists p a, c' = At m' q k p a.
Definition ends (c : config) (bt ct : nat) (q ke : Z) (o : okind) (m' : Z -> Z) (c' : config) : Prop :=
  match o with
  | Normal => at_cell q ke m' c'
  | Brk => exists k, at_cell q k m' c' /\ wh bt = 4 * k
  | Cont => exists k, at_cell q k m' c' /\ wh ct = 4 * k /\ Strictly c c'
  | Ret v => returning M q o m' c'
  end.
Lemma ends_from c c1 bt ct q ke o m' c' : Gets c c1 -> ends c1 bt ct q ke o m' c' -> ends c bt ct q ke o m' c'.
Proof. intros G. destruct o; cbn [ends]; auto. intros (k & A & W & S). exists k. split; [exact A|]. split; [exact W|]. exact (gets_strictly _ _ _ G S). Qed.
Lemma ends_eq c bt ct q k1 k2 o m' c' : k1 = k2 -> ends c bt ct q k1 o m' c' -> ends c bt ct q k2 o m' c'.
Proof. now intros ->. Qed.
(* What a loop leaves through. *)
Definition over (q ke : Z) (o : okind) (m' : Z -> Z) (c' : config) : Prop :=
  match o with Normal => at_cell q ke m' c' | Ret v => returning M q o m' c' | _ => False end.
Lemma over_ends c bt ct q ke o m' c' : over q ke o m' c' -> ends c bt ct q ke o m' c'.
Proof. destruct o; cbn [over ends]; auto; contradiction. Qed.

Definition runs_as (F : nat) (bt ct : nat) (g : list aop) (r : store -> sres) (d : Z) : Prop :=
  forall k m q p a st, Laid k g -> 0 <= k -> k + size g < ncells -> Holds st m -> hp s0 + 4 * d < q <= sp s0 ->
  Behaves F m (At m q k p a) q (r st) (ends (At m q k p a) bt ct q (k + size g)).

(* ---- Loops ---- *)
Lemma rounds_ok F q kh kb kbe ke nb nc test adv body : wh nb = 4 * ke ->
  (forall m p a st, Holds st m -> Reaches m (At m q kh p a) q (test st) (fun v m' c' => at_cell q (if v =? 0 then ke else kb) m' c')) ->
  (forall m p a st, Holds st m -> Behaves F m (At m q kb p a) q (body st) (ends (At m q kb p a) nb nc q kbe)) ->
  (forall m p a st o st1 m1 c1, body st = Fin o st1 -> (o = Normal \/ o = Cont) -> Gets (At m q kb p a) c1 ->
     ends (At m q kb p a) nb nc q kbe o m1 c1 -> Holds st1 m1 ->
     Reaches m1 c1 q (adv st1) (fun _ m2 c2 => at_cell q kh m2 c2 /\ Strictly (At m q kb p a) c2)) ->
  forall n, (n <= F)%nat -> forall m p a st, Holds st m -> Behaves n m (At m q kh p a) q (rounds n test adv body st) (over q ke).
Proof.
  intros NB T B N. induction n as [|n IH]; intros L m p a st H; cbn [rounds].
  - exists (At m q kh p a). reflexivity.
  - eapply s_eval; [apply T; exact H|]. intros v st1 m1 c1 _ G1 (p1 & a1 & ->) Hh1. destruct (v =? 0).
    + apply s_fin; [|exact Hh1]. now exists p1, a1.
    + specialize (B m1 p1 a1 st1 Hh1). destruct (body st1) as [o st2|e st2| |] eqn:Eb; cbn [sthen].
      2, 3: exact B. 2: exact (s_less F (S n) _ _ _ SFuel _ L B).
      destruct B as (m2 & c2 & G2 & En & Hh2 & O2).
      assert (Go : o = Normal \/ o = Cont -> Behaves (S n) m1 (At m1 q kb p1 a1) q (seval (adv st2) (fun _ st => rounds n test adv body st)) (over q ke)).
      { intros Oo. pose proof (N m1 p1 a1 st1 o st2 m2 c2 Eb Oo G2 En Hh2) as R.
        destruct (adv st2) as [w st3|e st3|]; cbn [seval reaches behaves] in *; auto.
        - destruct R as (m3 & c3 & G3 & ((p3 & a3 & ->) & S3) & Hh3 & O3).
          apply (s_strict n m3 (At m3 q kh p3 a3)); [exact S3|exact (only_trans q _ _ _ O2 O3)|]. apply IH; [lia|exact Hh3].
        - exact (gets_stops _ _ _ _ G2 R). }
      destruct o; try (apply Go; auto; fail).
      * apply (s_go (S n) m2 c2); auto. apply s_fin; [|exact Hh2]. destruct En as (k & A & W). cbn [over]. replace ke with k by lia. exact A.
      * apply (s_go (S n) m2 c2); auto. apply s_fin; [exact En|exact Hh2].
Qed.
Lemma rounds_do_ok F q kh kbe ke nb nc test body : wh nb = 4 * ke ->
  (forall m p a st, Holds st m -> Behaves F m (At m q kh p a) q (body st) (ends (At m q kh p a) nb nc q kbe)) ->
  (forall m p a st o st1 m1 c1, body st = Fin o st1 -> (o = Normal \/ o = Cont) -> Gets (At m q kh p a) c1 ->
     ends (At m q kh p a) nb nc q kbe o m1 c1 -> Holds st1 m1 ->
     Reaches m1 c1 q (test st1) (fun v m2 c2 => at_cell q (if v =? 0 then ke else kh) m2 c2 /\ Strictly (At m q kh p a) c2)) ->
  forall n, (n <= F)%nat -> forall m p a st, Holds st m -> Behaves n m (At m q kh p a) q (rounds_do n test body st) (over q ke).
Proof.
  intros NB B N. induction n as [|n IH]; intros L m p a st H; cbn [rounds_do].
  - exists (At m q kh p a). reflexivity.
  - specialize (B m p a st H). destruct (body st) as [o st2|e st2| |] eqn:Eb; cbn [sthen].
    2, 3: exact B. 2: exact (s_less F (S n) _ _ _ SFuel _ L B).
    destruct B as (m2 & c2 & G2 & En & Hh2 & O2).
    assert (Go : o = Normal \/ o = Cont -> Behaves (S n) m (At m q kh p a) q (seval (test st2) (fun v st => if v =? 0 then Fin Normal st else rounds_do n test body st)) (over q ke)).
    { intros Oo. pose proof (N m p a st o st2 m2 c2 Eb Oo G2 En Hh2) as R.
      destruct (test st2) as [w st3|e st3|]; cbn [seval reaches behaves] in *; auto.
      - destruct R as (m3 & c3 & G3 & ((p3 & a3 & ->) & S3) & Hh3 & O3).
        apply (s_strict n m3 (At m3 q (if w =? 0 then ke else kh) p3 a3)); [exact S3|exact (only_trans q _ _ _ O2 O3)|].
        destruct (w =? 0).
        + apply s_fin; [|exact Hh3]. now exists p3, a3.
        + apply IH; [lia|exact Hh3].
      - exact (gets_stops _ _ _ _ G2 R). }
    destruct o; try (apply Go; auto; fail).
    + apply (s_go (S n) m2 c2); auto. apply s_fin; [|exact Hh2]. destruct En as (k & A & W). cbn [over]. replace ke with k by lia. exact A.
    + apply (s_go (S n) m2 c2); auto. apply s_fin; [exact En|exact Hh2].
Qed.

(* ---- Statements, one kind at a time ---- *)
Lemma e_value e n : accepted e -> evaluates M sc obase wh (Gen Value e n) e (depth e).
Proof. intros A. apply value_mode. exact (proj1 (gen_correct M sc obase wh glab ga PD TMO SMALL) e A Value n). Qed.
Lemma e_test e (jot : bool) t n k m q p a st kt : accepted e -> Laid k (Gen (Test jot t) e n) -> 0 <= k -> k + size (Gen (Test jot t) e n) < ncells ->
  Holds st m -> hp s0 + 4 * depth e < q <= sp s0 -> wh t = 4 * kt -> 0 <= kt < ncells ->
  Reaches m (At m q k p a) q (eval sc e st) (fun v m' c' =>
    at_cell q (if Bool.eqb (negb (v =? 0)) jot then kt else k + size (Gen (Test jot t) e n)) m' c' /\ Strictly (At m q k p a) c').
Proof.
  intros A L K1 K2 H Q W B.
  pose proof (proj1 (gen_correct M sc obase wh glab ga PD TMO SMALL) e A (Test jot t) n k m q p a st L K1 K2 H Q ltac:(exists kt; auto)) as R.
  eapply r_post; [exact R|]. intros v m' c' (V & k' & p' & a' & -> & Ln & S). cbn [eff] in S. split; [|exact S].
  exists p', a'. unfold lands in Ln. cbn [eff] in Ln. f_equal. destruct (Bool.eqb (negb (v =? 0)) jot); lia.
Qed.

Definition pre (lb : bool) : list aop := if lb then [] else [BREAK_OP].
Lemma st_pre F bt ct lb g r d : runs_as F bt ct g r d -> runs_as F bt ct (pre lb ++ g) r d.
Proof.
  destruct lb; [exact (fun H => H)|]. intros R k m q p a st L K1 K2 H Q. unfold pre in *. rewrite laid_app in L. destruct L as [L1 L2].
  rewrite size_app in *. unfold BREAK_OP in *. rewrite sz1 in *. pose proof (size_nonneg g). apply laid1 in L1 as [C _]; [|now apply op_i32].
  pose proof (go_brk m q k p a K1 ltac:(lia) C) as G.
  eapply s_go; [exact G|apply only_refl|]. eapply s_post; [apply R; auto; lia|].
  intros o st' m' c' _ _ E. rewrite Z.add_assoc. exact (ends_from _ _ _ _ _ _ _ _ _ G E).
Qed.
Lemma st_expr F bt ct e n : accepted e ->
  runs_as F bt ct (Gen Value e n) (fun st => seval (eval sc e st) (fun _ st => Fin Normal st)) (depth e).
Proof.
  intros A k m q p a st L K1 K2 H Q. eapply s_eval; [apply (e_value e n A); auto|].
  intros v st' m' c' _ _ (V & a' & ->) Hh. apply s_fin; [|exact Hh]. now exists v, a'.
Qed.
Definition decl_code (slot : Z) (i : option expr) (n : nat) : list aop :=
  match i with
  | Some e => match konst e with Some v => [Emit [19; slot; v]] | None => Gen Value e n ++ [Emit [17; slot]] end
  | None => [Emit [92; slot]]
  end.
Lemma laid3 k x y z g : Laid k (Emit [x; y; z] :: g) -> is_i32 x -> is_i32 y -> is_i32 z ->
  cell_at code k = x /\ cell_at code (k + 1) = y /\ cell_at code (k + 2) = z.
Proof.
  intros [H L] X Y Zz. pose proof (H O ltac:(cbn; lia)) as A. pose proof (H 1%nat ltac:(cbn; lia)) as B. pose proof (H 2%nat ltac:(cbn; lia)) as C.
  rewrite Z.add_0_r in A. cbn [nth] in A, B, C. rewrite wrap32_id in A, B, C by assumption. auto.
Qed.
Lemma st_decl F bt ct slot i n : is_i32 slot -> accepted_o i ->
  runs_as F bt ct (decl_code slot i n) (fun st => match vloc sc (VLocal slot) with
    | Some x => seval (evalo sc i 0 st) (fun v st => Fin Normal (update st x v)) | None => SUnspec end) (depth_o i).
Proof.
  intros I A k m q p a st L K1 K2 H Q. destruct (vloc sc (VLocal slot)) as [x|] eqn:V; [|exact Logic.I].
  destruct (pd_local _ _ _ _ _ _ PD slot x V) as (S1 & S2 & S3 & S4).
  pose proof (live_reach x S4) as R.
  destruct i as [e|]; cbn [decl_code evalo accepted_o depth_o] in *.
  - destruct (konst e) as [v|] eqn:Ke.
    + destruct (konst_val sc e v A Ke) as [Vi Ev]. rewrite Ev. cbn [seval].
      apply laid3 in L as (C1 & C2 & C3); [|now apply op_i32|exact I|exact Vi]. change (size [Emit [19; slot; v]]) with 3 in *.
      eapply (s_go _ (store32 m (Adr x) v)); [apply (go_stor_s_c m q k p a slot v); auto; [lia|rewrite S3; exact R|lia]| |].
      * now apply only_store.
      * apply s_fin; [exists p, a; now rewrite S3|]. now apply holds_update.
    + rewrite laid_app in L. destruct L as [L1 L2]. rewrite size_app in *. change (size [Emit [17; slot]]) with 2 in *.
      eapply s_eval; [apply (e_value e n A); auto; lia|]. intros v st' m' c' _ _ (Vi & a' & ->) Hh.
      pose proof (size_nonneg (Gen Value e n)). apply laid2 in L2 as (C1 & C2 & _); [|now apply op_i32|exact I].
      eapply (s_go _ (store32 m' (Adr x) v)); [apply (go_stor_s m' q (k + size (Gen Value e n)) v a' slot); auto; [lia|lia|rewrite S3; exact R|lia]| |].
      * now apply only_store.
      * apply s_fin; [exists v, a'; rewrite S3; f_equal; lia|]. now apply holds_update.
  - cbn [seval]. apply laid2 in L as (C1 & C2 & _); [|now apply op_i32|exact I]. change (size [Emit [92; slot]]) with 2 in *.
    eapply (s_go _ (store32 m (Adr x) 0)); [apply (go_zero_s m q k p a slot); auto; [lia|rewrite S3; exact R|lia]| |].
    + now apply only_store.
    + apply s_fin; [exists p, a; now rewrite S3|]. apply holds_update; auto; now apply op_i32.
Qed.
Lemma st_if F bt ct c n n1 A ra da : accepted c -> runs_as F bt ct A ra da ->
  runs_as F bt ct (Gen (Test false n) c n1 ++ A ++ [Bind n])
    (fun st => seval (eval sc c st) (fun v st => if v =? 0 then Fin Normal st else ra st)) (Z.max (depth c) da).
Proof.
  intros Ac R k m q p a st L K1 K2 H Q. set (T := Gen (Test false n) c n1) in *. rewrite !laid_app in L. destruct L as (L1 & L2 & L3).
  rewrite !size_app, szb, Z.add_0_r in *. apply laid_bind in L3 as [W _].
  pose proof (size_nonneg T). pose proof (size_nonneg A).
  eapply s_eval; [apply (e_test c false n n1 k m q p a st (k + size T + size A) Ac L1); auto; fold T; lia|].
  intros v st1 m1 c1 _ G ((p1 & a1 & ->) & S) Hh. fold T in G, S |- *. rewrite Z.add_assoc. destruct (v =? 0); cbn [negb Bool.eqb] in *.
  - apply s_fin; [now exists p1, a1|exact Hh].
  - eapply s_post; [apply R; auto; lia|]. intros o st' m' c' _ _ E. exact (ends_from _ _ _ _ _ _ _ _ _ G E).
Qed.
(* [ov]: the jump over the else branch is there. *)
Lemma st_ifelse F bt ct c n x n1 A B ra rb da db (ov : bool) : accepted c -> runs_as F bt ct A ra da -> runs_as F bt ct B rb db ->
  (ov = false -> forall st st', ra st <> Fin Normal st') ->
  runs_as F bt ct (Gen (Test false n) c n1 ++ A ++ (if ov then [JUMP_TO x] else []) ++ [Bind n] ++ B ++ (if ov then [Bind x] else []))
    (fun st => seval (eval sc c st) (fun v st => if v =? 0 then rb st else ra st)) (Z.max (depth c) (Z.max da db)).
Proof.
  intros Ac Ra Rb NN k m q p a st L K1 K2 H Q. set (T := Gen (Test false n) c n1) in *. rewrite !laid_app in L. destruct L as (L1 & L2 & L3 & L4 & L5 & L6).
  rewrite !size_app, szb in *. apply laid_bind in L4 as [W _].
  assert (S6 : size (if ov then [Bind x] else []) = 0) by (destruct ov; reflexivity). rewrite S6 in *.
  set (J := size (if ov then [JUMP_TO x] else [])) in *.
  pose proof (size_nonneg T). pose proof (size_nonneg A). pose proof (size_nonneg B). assert (0 <= J) by apply size_nonneg.
  replace (k + (size T + (size A + (J + (0 + (size B + 0)))))) with (k + size T + size A + J + 0 + size B) in * by lia.
  eapply s_eval; [apply (e_test c false n n1 k m q p a st (k + size T + size A + J) Ac L1); auto; fold T; lia|].
  intros v st1 m1 c1 _ G ((p1 & a1 & ->) & S) Hh. fold T in G, S |- *. destruct (v =? 0); cbn [negb Bool.eqb] in *.
  - eapply s_go; [apply gets_refl|apply only_refl|]. replace (k + size T + size A + J) with (k + size T + size A + J + 0) in G |- * by lia.
    eapply s_post; [apply Rb; auto; lia|]. intros o st' m' c' _ _ E. eapply ends_eq; [|exact (ends_from _ _ _ _ _ _ _ _ _ G E)]. lia.
  - specialize (Ra (k + size T) m1 q p1 a1 st1 L2 ltac:(lia) ltac:(lia) Hh ltac:(lia)).
    destruct (ra st1) as [o st2|e st2| |] eqn:Er; cbn [behaves] in *; auto.
    destruct Ra as (m2 & c2 & G2 & E & Hh2 & O2). destruct o.
    + destruct ov; [|exfalso; exact (NN eq_refl st1 st2 Er)]. destruct E as (p2 & a2 & ->).
      apply laid_bind in L6 as [W6 _]. subst J. change (size [JUMP_TO x]) with 2 in *.
      exists m2, (At m2 q (k + size T + size A + 2 + 0 + size B) p2 a2). split; [|split; [now exists p2, a2|auto]].
      eapply gets_trans; [exact G2|]. apply (go_jump m2 q (k + size T + size A) p2 a2 x); auto; lia.
    + exists m2, c2. auto.
    + exists m2, c2. split; [exact G2|]. split; [|auto]. exact (ends_from _ _ _ _ _ _ _ _ _ G E).
    + exists m2, c2. auto.
Qed.
Lemma st_nil F bt ct d : runs_as F bt ct [] (fun st => Fin Normal st) d.
Proof. intros k m q p a st L K1 K2 H Q. apply s_fin; [|exact H]. exists p, a. f_equal. cbn [size]. lia. Qed.
Lemma st_seq F bt ct A B ra rb da db : runs_as F bt ct A ra da -> runs_as F bt ct B rb db ->
  runs_as F bt ct (A ++ B) (fun st => sthen (ra st) (fun o st => match o with Normal => rb st | _ => Fin o st end)) (Z.max da db).
Proof.
  intros Ra Rb k m q p a st L K1 K2 H Q. rewrite laid_app in L. destruct L as [L1 L2]. rewrite size_app in *.
  pose proof (size_nonneg A). pose proof (size_nonneg B).
  eapply s_then; [apply Ra; auto; lia|]. intros o st1 m1 c1 _ G E Hh. rewrite Z.add_assoc. destruct o.
  - destruct E as (p1 & a1 & ->). eapply s_post; [apply Rb; auto; lia|]. intros o st' m' c' _ _ E. exact (ends_from _ _ _ _ _ _ _ _ _ G E).
  - apply s_fin; [exact E|exact Hh].
  - apply s_fin; [exact E|exact Hh].
  - apply s_fin; [exact E|exact Hh].
Qed.
Lemma st_break F bt ct d : good bt -> runs_as F bt ct [JUMP_TO bt] (fun st => Fin Brk st) d.
Proof.
  intros (kt & W & B) k m q p a st L K1 K2 H Q. change (size [JUMP_TO bt]) with 2 in *.
  exists m, (At m q kt p a). split; [apply (go_jump m q k p a bt); auto; lia|]. split; [|split; [exact H|apply only_refl]].
  exists kt. split; [now exists p, a|exact W].
Qed.
Lemma st_continue F bt ct d : good ct -> runs_as F bt ct [JUMP_TO ct] (fun st => Fin Cont st) d.
Proof.
  intros (kt & W & B) k m q p a st L K1 K2 H Q. change (size [JUMP_TO ct]) with 2 in *.
  exists m, (At m q kt p a). split; [apply (go_jump m q k p a ct); auto; lia|]. split; [|split; [exact H|apply only_refl]].
  exists kt. split; [now exists p, a|]. split; [exact W|]. apply (step_jump m q k p a ct); auto; lia.
Qed.
Lemma go_zero_pri m q k p a : Laid k [Emit (const_pri 0)] -> 0 <= k -> k + 1 <= ncells -> Gets (At m q k p a) (At m q (k + 1) 0 a).
Proof. intros L K1 K2. apply (go_const_pri m q k p a 0); auto; now apply op_i32. Qed.
Lemma st_return F bt ct e n : accepted_o e ->
  runs_as F bt ct ((match e with Some e => Gen Value e n | None => [Emit (const_pri 0)] end) ++ [Emit [48]])
    (fun st => seval (evalo sc e 0 st) (fun v st => Fin (Ret v) st)) (depth_o e).
Proof.
  intros A k m q p a st L K1 K2 H Q. rewrite laid_app in L. destruct L as [L1 L2]. rewrite size_app, sz1 in *.
  apply laid1 in L2 as [C _]; [|now apply op_i32].
  destruct e as [e|]; cbn [accepted_o evalo depth_o] in *.
  - pose proof (size_nonneg (Gen Value e n)). eapply s_eval; [apply (e_value e n A); auto; lia|]. intros v st' m' c' _ _ (V & a' & ->) Hh.
    apply s_fin; [|exact Hh]. exists v, (k + size (Gen Value e n)), a'. repeat (split; [reflexivity || assumption || lia|]). exact C.
  - cbn [seval]. change (size [Emit (const_pri 0)]) with 1 in *.
    eapply s_go; [apply go_zero_pri; auto; lia|apply only_refl|]. apply s_fin; [|exact H].
    exists 0, (k + 1), a. split; [reflexivity|]. split; [reflexivity|]. split; [now apply op_i32|]. split; [lia|exact C].
Qed.

Definition never_passes (r : store -> sres) : Prop := forall st o st', r st = Fin o st' -> o <> Normal /\ o <> Cont.
Definition never_ends (r : store -> sres) : Prop := forall st st', r st <> Fin Normal st'.
Lemma st_while F bt ct c n cl n1 B rb db (back : bool) : accepted c -> (good n -> good cl -> runs_as F n cl B rb db) -> (back = false -> never_ends rb) ->
  runs_as F bt ct ([Bind cl] ++ Gen (Test false n) c n1 ++ B ++ (if back then [JUMP_TO cl] else []) ++ [Bind n])
    (fun st => rounds F (eval sc c) (fun st => Val 0 st) rb st) (Z.max (depth c) db).
Proof.
  intros Ac Rb NE k m q p a st L K1 K2 H Q. set (T := Gen (Test false n) c n1) in *. rewrite !laid_app in L. destruct L as (L1 & L2 & L3 & L4 & L5).
  rewrite !size_app, !szb, !Z.add_0_r, ?Z.add_0_l in *. apply laid_bind in L1 as [W1 _]. apply laid_bind in L5 as [W5 _].
  set (J := size (if back then [JUMP_TO cl] else [])) in *.
  pose proof (size_nonneg T). pose proof (size_nonneg B). assert (0 <= J) by apply size_nonneg.
  replace (k + (size T + (size B + J))) with (k + size T + size B + J) in * by lia.
  eapply s_post; [|intros o st' m' c' _ _ E; apply over_ends; exact E].
  apply (rounds_ok F q k (k + size T) (k + size T + size B) (k + size T + size B + J) n cl); auto.
  - intros m1 p1 a1 st1 Hh1. eapply r_post; [apply (e_test c false n n1 k m1 q p1 a1 st1 (k + size T + size B + J)); auto; fold T; lia|].
    fold T. intros v m2 c2 (E & _). destruct (v =? 0); exact E.
  - intros m1 p1 a1 st1 Hh1. apply Rb; auto; try lia.
    + exists (k + size T + size B + J). lia.
    + exists k. lia.
  - intros m1 p1 a1 st1 o st2 m2 c2 Er [-> | ->] G E Hh2.
    + destruct back; [|exfalso; exact (NE eq_refl _ _ Er)]. destruct E as (p2 & a2 & ->). change J with 2 in *.
      pose proof (step_jump m2 q (k + size T + size B) p2 a2 cl k L4 ltac:(lia) ltac:(lia) ltac:(lia) ltac:(lia)) as S.
      eapply r_go0; [exact (strictly_gets_too _ _ S)|]. apply r_val; [|exact Hh2]. split; [now exists p2, a2|exact (gets_strictly _ _ _ G S)].
    + destruct E as (k2 & A2 & W2 & S2). replace k2 with k in A2 by lia. apply r_val; auto.
Qed.
Lemma st_do F bt ct c n cl top n1 B rb db (tests : bool) : accepted c -> (good n -> (tests = true -> good cl) -> runs_as F n cl B rb db) ->
  (tests = false -> never_passes rb) ->
  runs_as F bt ct ([Bind top] ++ B ++ (if tests then [Bind cl] ++ Gen (Test true top) c n1 else []) ++ [Bind n])
    (fun st => rounds_do F (eval sc c) rb st) (Z.max (depth c) db).
Proof.
  intros Ac Rb NP k m q p a st L K1 K2 H Q. rewrite !laid_app in L. destruct L as (L1 & L2 & L3 & L4).
  rewrite !size_app, !szb, !Z.add_0_r, ?Z.add_0_l in *. apply laid_bind in L1 as [W1 _]. apply laid_bind in L4 as [W4 _].
  set (X := if tests then _ else _) in *. pose proof (size_nonneg B). pose proof (size_nonneg X).
  replace (k + (size B + size X)) with (k + size B + size X) in * by lia.
  assert (GN : good n) by (exists (k + size B + size X); lia).
  assert (GC : tests = true -> wh cl = 4 * (k + size B)).
  { intros ->. subst X. cbn [app] in L3. apply laid_bind in L3 as [W3 _]. exact W3. }
  eapply s_post; [|intros o st' m' c' _ _ E; apply over_ends; exact E].
  apply (rounds_do_ok F q k (k + size B) (k + size B + size X) n cl); auto.
  - intros m1 p1 a1 st1 Hh1. apply Rb; auto; try lia. intros Te. exists (k + size B). rewrite (GC Te). lia.
  - intros m1 p1 a1 st1 o st2 m2 c2 Er Oo G E Hh2.
    destruct tests; [|exfalso; destruct (NP eq_refl _ _ _ Er); destruct Oo; contradiction].
    assert (E2 : at_cell q (k + size B) m2 c2).
    { destruct Oo as [-> | ->]; [exact E|]. destruct E as (k2 & A2 & W2 & S2). rewrite (GC eq_refl) in W2. now replace (k + size B) with k2 by lia. }
    destruct E2 as (p2 & a2 & ->). subst X. cbn [app] in L3. apply laid_bind in L3 as [W3 L3].
    change (size ([Bind cl] ++ Gen (Test true top) c n1)) with (size (Gen (Test true top) c n1)) in *.
    eapply r_post; [apply (e_test c true top n1 (k + size B) m2 q p2 a2 st2 k); auto; lia|].
    intros v m3 c3 (E3 & S3). split; [|exact (gets_strictly _ _ _ G S3)]. destruct (v =? 0); exact E3.
Qed.

Definition test_code (n : nat) (c : option expr) (n1 : nat) : list aop :=
  match c with Some e => if always_taken (Some e) then [] else Gen (Test false n) e n1 | None => [] end.
Lemma for_test c n n1 k ke m q p a st : accepted_o c -> Laid k (test_code n c n1) -> 0 <= k -> k + size (test_code n c n1) < ncells ->
  Holds st m -> hp s0 + 4 * depth_o c < q <= sp s0 -> wh n = 4 * ke -> 0 <= ke < ncells ->
  Reaches m (At m q k p a) q (evalo sc c 1 st) (fun v m' c' => at_cell q (if v =? 0 then ke else k + size (test_code n c n1)) m' c').
Proof.
  intros A L K1 K2 H Q W B. destruct (always_taken c) eqn:Al.
  - destruct (always_val sc c A Al st) as (v & -> & Vz). assert (T : test_code n c n1 = []) by (destruct c; cbn [test_code]; rewrite ?Al; reflexivity).
    rewrite T. apply r_val; [|exact H]. rewrite Vz. exists p, a. f_equal. cbn [size]. lia.
  - destruct c as [e|]; [|discriminate Al]. cbn [test_code accepted_o depth_o evalo] in *. rewrite Al in *.
    eapply r_post; [apply (e_test e false n n1 k m q p a st ke); auto|]. intros v m' c' (E & _). destruct (v =? 0); exact E.
Qed.
Lemma st_for_adv F bt ct c e n cl top n1 n2 B rb db (hc ex : bool) : accepted_o c -> accepted e ->
  (good n -> (hc = true -> good cl) -> runs_as F n cl B rb db) -> (hc = false -> never_passes rb) -> (ex = true -> hc = false) ->
  runs_as F bt ct ([Bind top] ++ test_code n c n1 ++ B ++ (if hc then [Bind cl] ++ Gen Value e n2 else []) ++ (if ex then [] else [JUMP_TO top]) ++ [Bind n])
    (fun st => rounds F (evalo sc c 1) (eval sc e) rb st) (Z.max db (Z.max (depth_o c) (depth e))).
Proof.
  intros Ac Ae Rb NP EX k m q p a st L K1 K2 H Q. set (T := test_code n c n1) in *. rewrite !laid_app in L. destruct L as (L1 & L2 & L3 & L4 & L5 & L6).
  rewrite !size_app, !szb, !Z.add_0_r, ?Z.add_0_l in *. apply laid_bind in L1 as [W1 _]. apply laid_bind in L6 as [W6 _].
  set (X := if hc then _ else _) in *. set (J := size (if ex then _ else _)) in *.
  pose proof (size_nonneg T). pose proof (size_nonneg B). pose proof (size_nonneg X). assert (0 <= J) by apply size_nonneg.
  replace (k + (size T + (size B + (size X + J)))) with (k + size T + size B + size X + J) in * by lia.
  assert (GC : hc = true -> wh cl = 4 * (k + size T + size B)).
  { intros ->. subst X. cbn [app] in L4. apply laid_bind in L4 as [W4 _]. exact W4. }
  eapply s_post; [|intros o st' m' c' _ _ E; apply over_ends; exact E].
  apply (rounds_ok F q k (k + size T) (k + size T + size B) (k + size T + size B + size X + J) n cl); auto.
  - intros m1 p1 a1 st1 Hh1. apply for_test; auto; fold T; lia.
  - intros m1 p1 a1 st1 Hh1. apply Rb; auto; try lia.
    + exists (k + size T + size B + size X + J). lia.
    + intros Te. exists (k + size T + size B). rewrite (GC Te). lia.
  - intros m1 p1 a1 st1 o st2 m2 c2 Er Oo G E Hh2.
    destruct hc; [|exfalso; destruct (NP eq_refl _ _ _ Er); destruct Oo; contradiction].
    assert (E2 : at_cell q (k + size T + size B) m2 c2).
    { destruct Oo as [-> | ->]; [exact E|]. destruct E as (k2 & A2 & W2 & S2). rewrite (GC eq_refl) in W2. now replace (k + size T + size B) with k2 by lia. }
    destruct E2 as (p2 & a2 & ->). subst X. cbn [app] in L4. apply laid_bind in L4 as [W4 L4].
    change (size ([Bind cl] ++ Gen Value e n2)) with (size (Gen Value e n2)) in *.
    destruct ex; [discriminate (EX eq_refl)|]. change J with 2 in *.
    pose proof (e_value e n2 Ae (k + size T + size B) m2 q p2 a2 st2 L4 ltac:(lia) ltac:(lia) Hh2 ltac:(lia)) as R.
    destruct (eval sc e st2) as [v st3|er st3|]; cbn [reaches] in *; auto.
    destruct R as (m3 & c3 & G3 & (V & a3 & ->) & Hh3 & O3).
    pose proof (step_jump m3 q _ v a3 top k L5 ltac:(lia) ltac:(lia) ltac:(lia) ltac:(lia)) as S.
    exists m3, (At m3 q k v a3). split; [exact (gets_trans _ _ _ G3 (strictly_gets_too _ _ S))|]. split; [|auto].
    split; [now exists v, a3|]. exact (gets_strictly _ _ _ G (gets_strictly _ _ _ G3 S)).
Qed.
Lemma st_for_plain F bt ct c n cl n1 B rb db (ex : bool) : accepted_o c ->
  (good n -> good cl -> runs_as F n cl B rb db) -> (ex = true -> never_passes rb) ->
  runs_as F bt ct ([Bind cl] ++ test_code n c n1 ++ B ++ (if ex then [] else [JUMP_TO cl]) ++ [Bind n])
    (fun st => rounds F (evalo sc c 1) (fun st => Val 0 st) rb st) (Z.max db (depth_o c)).
Proof.
  intros Ac Rb NP k m q p a st L K1 K2 H Q. set (T := test_code n c n1) in *. rewrite !laid_app in L. destruct L as (L1 & L2 & L3 & L5 & L6).
  rewrite !size_app, !szb, !Z.add_0_r, ?Z.add_0_l in *. apply laid_bind in L1 as [W1 _]. apply laid_bind in L6 as [W6 _].
  set (J := size (if ex then _ else _)) in *.
  pose proof (size_nonneg T). pose proof (size_nonneg B). assert (0 <= J) by apply size_nonneg.
  replace (k + (size T + (size B + J))) with (k + size T + size B + J) in * by lia.
  eapply s_post; [|intros o st' m' c' _ _ E; apply over_ends; exact E].
  apply (rounds_ok F q k (k + size T) (k + size T + size B) (k + size T + size B + J) n cl); auto.
  - intros m1 p1 a1 st1 Hh1. apply for_test; auto; fold T; lia.
  - intros m1 p1 a1 st1 Hh1. apply Rb; auto; try lia.
    + exists (k + size T + size B + J). lia.
    + exists k. lia.
  - intros m1 p1 a1 st1 o st2 m2 c2 Er Oo G E Hh2.
    destruct ex; [exfalso; destruct (NP eq_refl _ _ _ Er); destruct Oo; contradiction|]. change J with 2 in *.
    destruct Oo as [-> | ->].
    + destruct E as (p2 & a2 & ->).
      pose proof (step_jump m2 q _ p2 a2 cl k L5 ltac:(lia) ltac:(lia) ltac:(lia) ltac:(lia)) as S.
      eapply r_go0; [exact (strictly_gets_too _ _ S)|]. apply r_val; [|exact Hh2]. split; [now exists p2, a2|exact (gets_strictly _ _ _ G S)].
    + destruct E as (k2 & A2 & W2 & S2). replace k2 with k in A2 by lia. apply r_val; auto.
Qed.
Lemma st_never F bt ct c adv n rb d : accepted_o c -> never_taken c = true ->
  runs_as F bt ct [Bind n] (fun st => rounds F (evalo sc c 1) adv rb st) d.
Proof.
  intros Ac N k m q p a st L K1 K2 H Q. change (size [Bind n]) with 0 in *. destruct F as [|F]; cbn [rounds].
  - exists (At m q k p a). reflexivity.
  - rewrite (never_val sc c Ac N). cbn [seval]. change (0 =? 0) with true. apply s_fin; [|exact H]. exists p, a. f_equal. lia.
Qed.

(* ---- Switch ---- *)
Lemma find_entries v t : forall k, Forall (fun c => is_i32 (fst c) /\ is_i32 (wh (snd c))) t ->
  Laid k (map (fun c => CaseEntry (fst c) (snd c)) t) ->
  find_case code k (length t) v = match lookup v t with Some l => Some (wh l) | None => None end.
Proof.
  unfold lookup. induction t as [|[u l] t IH]; intros k Fa L; cbn [length find_case find map fst snd] in *; [reflexivity|].
  inversion Fa as [|? ? [U Wl] Fa']; subst. destruct L as (C1 & C2 & L). cbn [fst snd] in *. rewrite wrap32_id in C1, C2 by assumption. rewrite C1, C2.
  destruct (u =? v); [reflexivity|]. now apply IH.
Qed.
Lemma size_entries (t : list (Z * nat)) : size (map (fun c => CaseEntry (fst c) (snd c)) t) = 2 * Z.of_nat (length t).
Proof. induction t as [|c t IH]; [reflexivity|]. cbn [map size length]. rewrite IH. lia. Qed.
Lemma forall_emplace (P : Z * nat -> Prop) v l t : P (v, l) -> Forall P t -> Forall P (emplace v l t).
Proof.
  intros Pv. induction t as [|[w l'] t IH]; cbn [emplace]; intros Fa; [auto|]. inversion Fa; subst.
  destruct (v <? w); [auto|]. destruct (v =? w); auto.
Qed.
Lemma forall_fold (P : Z * nat -> Prop) n vs : forall t, Forall (fun v => P (v, n)) vs -> Forall P t ->
  Forall P (fold_left (fun t v => emplace v n t) vs t).
Proof.
  induction vs as [|v vs IH]; cbn [fold_left]; intros t Fv Ft; [exact Ft|]. inversion Fv; subst. apply IH; auto. now apply forall_emplace.
Qed.
Lemma gc_default bt ct x d s n lb : gc glab ga bt ct x d (KDefault s) n lb =
  [Bind d] ++ gs glab ga bt ct s n lb ++ (if is_none (flow_of s) then [JUMP_TO x] else []).
Proof. reflexivity. Qed.
Lemma gc_case bt ct x d vs s r n lb : gc glab ga bt ct x d (KCase vs s r) n lb =
  [Bind n] ++ gs glab ga bt ct s (n + 1) lb ++ (if is_none (flow_of s) then [JUMP_TO x] else []) ++
  gc glab ga bt ct x d r (n + 1 + ns s) (if is_none (flow_of s) then false else ends_in_break s).
Proof. reflexivity. Qed.
Lemma ec_case F v vs s r st : execs_c sc F v (KCase vs s r) st = if existsb (Z.eqb v) vs then execs sc F s st else execs_c sc F v r st.
Proof. reflexivity. Qed.
Lemma dc_case vs s r : sdepth_c (KCase vs s r) = Z.max (sdepth s) (sdepth_c r).
Proof. reflexivity. Qed.
Lemma good_cases bt ct x d cs : forall n lb k t, Laid k (gc glab ga bt ct x d cs n lb) -> 0 <= k -> k + size (gc glab ga bt ct x d cs n lb) < ncells ->
  Forall is_i32 (case_values cs) -> Forall (fun c => is_i32 (fst c) /\ good (snd c)) t ->
  Forall (fun c => is_i32 (fst c) /\ good (snd c)) (case_table cs n t) /\ (has_default cs = true -> good d).
Proof.
  induction cs as [|s|vs s r IH]; intros n lb k t L K1 K2 V Ft; cbn [case_table has_default case_values].
  - split; [exact Ft|discriminate].
  - split; [exact Ft|]. intros _. rewrite gc_default in L, K2. rewrite !laid_app in L. rewrite !size_app, !szb in K2. destruct L as (L1 & _).
    apply laid_bind in L1 as [W _]. exists k. pose proof (size_nonneg (gs glab ga bt ct s n lb)).
    pose proof (size_nonneg (if is_none (flow_of s) then [JUMP_TO x] else [])). lia.
  - rewrite gc_case in L, K2. rewrite !laid_app in L. rewrite !size_app, !szb in K2. destruct L as (L1 & L2 & L3 & L4).
    apply laid_bind in L1 as [W _]. rewrite !szb, !Z.add_0_r in *. apply Forall_app in V as [V1 V2].
    pose proof (size_nonneg (gs glab ga bt ct s (n + 1) lb)). pose proof (size_nonneg (if is_none (flow_of s) then [JUMP_TO x] else [])).
    pose proof (size_nonneg (gc glab ga bt ct x d r (n + 1 + ns s) (if is_none (flow_of s) then false else ends_in_break s))).
    eapply IH; [exact L4|lia|lia|exact V2|]. apply forall_fold; [|exact Ft]. eapply Forall_impl; [|exact V1].
    intros v Vv. split; [exact Vv|]. exists k. cbn [snd]. lia.
Qed.

Definition runs_cases (F : nat) (bt ct x d : nat) (cs : cases) (n : nat) (lb : bool) : Prop :=
  forall k m q p a st v kx, Laid k (gc glab ga bt ct x d cs n lb) -> 0 <= k -> k + size (gc glab ga bt ct x d cs n lb) < ncells ->
  wh x = 4 * kx -> 0 <= kx < ncells -> Holds st m -> hp s0 + 4 * sdepth_c cs < q <= sp s0 ->
  exists kt, wh (pick x d cs n v) = 4 * kt /\ 0 <= kt < ncells /\
  Behaves F m (At m q kt p a) q (execs_c sc F v cs st) (ends (At m q kt p a) bt ct q kx).
Lemma st_case F bt ct A ra da x kx (ov : bool) : runs_as F bt ct A ra da -> (ov = false -> never_ends ra) ->
  forall k m q p a st, Laid k (A ++ if ov then [JUMP_TO x] else []) -> 0 <= k -> k + size (A ++ if ov then [JUMP_TO x] else []) < ncells ->
  wh x = 4 * kx -> 0 <= kx < ncells -> Holds st m -> hp s0 + 4 * da < q <= sp s0 ->
  Behaves F m (At m q k p a) q (ra st) (ends (At m q k p a) bt ct q kx).
Proof.
  intros Ra NN k m q p a st L K1 K2 W B H Q. rewrite laid_app in L. destruct L as [L1 L2]. rewrite size_app in *.
  pose proof (size_nonneg (if ov then [JUMP_TO x] else [])). specialize (Ra k m q p a st L1 K1 ltac:(lia) H Q).
  destruct (ra st) as [o st2|e st2| |] eqn:Er; cbn [behaves] in *; auto. destruct Ra as (m2 & c2 & G2 & E & Hh2 & O2). destruct o.
  - destruct ov; [|exfalso; exact (NN eq_refl st st2 Er)]. destruct E as (p2 & a2 & ->). change (size [JUMP_TO x]) with 2 in *.
    pose proof (size_nonneg A). exists m2, (At m2 q kx p2 a2). split; [|split; [now exists p2, a2|auto]].
    eapply gets_trans; [exact G2|]. apply (go_jump m2 q (k + size A) p2 a2 x); auto; lia.
  - exists m2, c2. auto.
  - exists m2, c2. auto.
  - exists m2, c2. auto.
Qed.
Lemma st_switch F bt ct e cs n n1 n2 : let t := case_table cs n2 [] in accepted e -> NoDup (case_values cs) -> Forall is_i32 (case_values cs) ->
  runs_cases F bt ct n (n + 2) cs n2 false ->
  runs_as F bt ct (Gen Value e n1 ++ [EmitLabel 129 (n + 1)] ++ gc glab ga bt ct n (n + 2) cs n2 false ++
      [Bind (n + 1); CaseTable 130 (Z.of_nat (length t)) (if has_default cs then n + 2 else n)] ++
      map (fun c => CaseEntry (fst c) (snd c)) t ++ [Bind n])
    (fun st => seval (eval sc e st) (fun v st => execs_c sc F v cs st)) (Z.max (depth e) (sdepth_c cs)).
Proof.
  intros t Ae ND I32 Rc k m q p a st L K1 K2 H Q. set (T := Gen Value e n1) in *. set (C := gc glab ga bt ct n (n + 2) cs n2 false) in *.
  rewrite !laid_app in L. destruct L as (L1 & L2 & L3 & L4 & L5 & L6).
  apply laid_bind in L6 as [W6 _]. set (dl := if has_default cs then (n + 2)%nat else n) in *.
  change (size [EmitLabel 129 (n + 1)]) with 2 in *. change (size [Bind (n + 1); CaseTable 130 (Z.of_nat (length t)) dl]) with 3 in *.
  rewrite !size_app, size_entries in *. change (size [EmitLabel 129 (n + 1)]) with 2 in *. change (size [Bind (n + 1); CaseTable 130 (Z.of_nat (length t)) dl]) with 3 in *.
  rewrite !szb in *. cbn [laid] in L2, L4. destruct L2 as (C1 & C2 & _). destruct L4 as (W4 & C3 & C4 & C5 & _).
  pose proof (size_nonneg T). pose proof (size_nonneg C). set (N := Z.of_nat (length t)) in *. assert (0 <= N) by lia.
  set (kx := k + size T + 2 + size C + 3 + 2 * N) in *. assert (KX : 0 <= kx < ncells) by lia.
  assert (GX : good n) by (exists kx; lia).
  destruct (good_cases bt ct n (n + 2) cs n2 false (k + size T + 2) [] L3 ltac:(lia) ltac:(fold C; lia) I32 (Forall_nil _)) as [Ft Gd].
  fold t in Ft. assert (GD : good dl) by (subst dl; destruct (has_default cs); auto).
  assert (GT : good (n + 1)) by (exists (k + size T + 2 + size C); lia).
  rewrite (wrap32_id (wh (n + 1))) in C2 by (apply good_i32; assumption).
  rewrite (wrap32_id (wh dl)) in C5 by (apply good_i32; assumption).
  rewrite (wrap32_id N) in C4 by (unfold is_i32; lia).
  change (wrap32 129) with 129 in C1. change (wrap32 130) with 130 in C3.
  replace (k + (size T + (2 + (size C + (3 + (2 * N + 0)))))) with kx in * by (subst kx; lia).
  eapply s_eval; [apply (e_value e n1 Ae); auto; fold T; lia|]. fold T.
  intros v st1 m1 c1 _ G (V & a1 & ->) Hh.
  destruct (Rc (k + size T + 2) m1 q v a1 st1 v kx L3 ltac:(lia) ltac:(fold C; lia) ltac:(lia) KX Hh ltac:(lia)) as (kt & Wt & Bt & Bh).
  assert (G2 : Gets (At m1 q (k + size T) v a1) (At m1 q kt v a1)).
  { apply (go_switch m1 q (k + size T) v a1 (k + size T + 2 + size C) N kt); auto; try lia.
    - subst N. rewrite Nat2Z.id. rewrite (find_entries v t); auto.
      + rewrite C5, <- Wt, <- (proj2 (lookup_table n (n + 2) cs n2 [] v ND ltac:(intros; intros []))  eq_refl). fold t.
        destruct (lookup v t); reflexivity.
      + eapply Forall_impl; [|exact Ft]. intros [u l] [U1 U2]. split; [exact U1|]. now apply good_i32. }
  eapply s_go; [exact G2|apply only_refl|]. eapply s_post; [exact Bh|].
  intros o st' m' c' _ _ E. exact (ends_from _ _ _ _ _ _ _ _ _ (gets_trans _ _ _ G G2) E).
Qed.

(* ---- Equations ---- *)
Lemma gs_pre bt ct s n lb : gs glab ga bt ct s n lb = pre lb ++ gs glab ga bt ct s n true.
Proof. destruct s; reflexivity. Qed.

Lemma gs_never bt ct i c a b n : never_taken c = true -> gs glab ga bt ct (SFor i c a b) n true = gl glab ga bt ct i (n + 3) true ++ [Bind n].
Proof.
  intros N. change (gs glab ga bt ct (SFor i c a b) n true) with (gl glab ga bt ct i (n + 3) true ++ (if never_taken c then [] else
    match a with
    | Some a => [Bind (n + 2)] ++ test_code n c (n + 3 + nsl i) ++
        gs glab ga n (n + 1) b (n + 3 + nsl i + nlo c) (if always_taken c then ends_l true i else false) ++
        (if for_continues c b then [Bind (n + 1)] ++ Gen Value a (n + 3 + nsl i + nlo c + ns b) else []) ++
        (if for_exits c b then [] else [JUMP_TO (n + 2)])
    | None => [Bind (n + 1)] ++ test_code n c (n + 3 + nsl i) ++
        gs glab ga n (n + 1) b (n + 3 + nsl i + nlo c) (if always_taken c then ends_l true i else false) ++ (if for_exits c b then [] else [JUMP_TO (n + 1)])
    end) ++ [Bind n]). rewrite N. reflexivity.
Qed.
Lemma gs_for_adv bt ct i c e b n : never_taken c = false -> gs glab ga bt ct (SFor i c (Some e) b) n true = gl glab ga bt ct i (n + 3) true ++
  [Bind (n + 2)] ++ test_code n c (n + 3 + nsl i) ++
  gs glab ga n (n + 1) b (n + 3 + nsl i + nlo c) (if always_taken c then ends_l true i else false) ++
  (if for_continues c b then [Bind (n + 1)] ++ Gen Value e (n + 3 + nsl i + nlo c + ns b) else []) ++
  (if for_exits c b then [] else [JUMP_TO (n + 2)]) ++ [Bind n].
Proof.
  intros N. change (gs glab ga bt ct (SFor i c (Some e) b) n true) with (gl glab ga bt ct i (n + 3) true ++ (if never_taken c then [] else
    [Bind (n + 2)] ++ test_code n c (n + 3 + nsl i) ++
        gs glab ga n (n + 1) b (n + 3 + nsl i + nlo c) (if always_taken c then ends_l true i else false) ++
        (if for_continues c b then [Bind (n + 1)] ++ Gen Value e (n + 3 + nsl i + nlo c + ns b) else []) ++
        (if for_exits c b then [] else [JUMP_TO (n + 2)])) ++ [Bind n]). rewrite N, <- !app_assoc. reflexivity.
Qed.
Lemma gs_for_plain bt ct i c b n : never_taken c = false -> gs glab ga bt ct (SFor i c None b) n true = gl glab ga bt ct i (n + 3) true ++
  [Bind (n + 1)] ++ test_code n c (n + 3 + nsl i) ++
  gs glab ga n (n + 1) b (n + 3 + nsl i + nlo c) (if always_taken c then ends_l true i else false) ++
  (if for_exits c b then [] else [JUMP_TO (n + 1)]) ++ [Bind n].
Proof.
  intros N. change (gs glab ga bt ct (SFor i c None b) n true) with (gl glab ga bt ct i (n + 3) true ++ (if never_taken c then [] else
    [Bind (n + 1)] ++ test_code n c (n + 3 + nsl i) ++
        gs glab ga n (n + 1) b (n + 3 + nsl i + nlo c) (if always_taken c then ends_l true i else false) ++
        (if for_exits c b then [] else [JUMP_TO (n + 1)])) ++ [Bind n]). rewrite N, <- !app_assoc. reflexivity.
Qed.
Lemma runs_deeper F bt ct g r d d' : runs_as F bt ct g r d -> d <= d' -> runs_as F bt ct g r d'.
Proof. intros R D k m q p a st L K1 K2 H Q. apply R; auto; lia. Qed.
(* ---- Every statement ---- *)
Theorem stm_correct F :
  (forall s l, accepted_s l s -> forall bt ct n lb, (has_break s = true -> good bt) -> (continues s = true -> good ct) ->
     runs_as F bt ct (gs glab ga bt ct s n lb) (execs sc F s) (sdepth s)) /\
  (forall b l, accepted_sl l b -> forall bt ct n lb, (has_break_l b = true -> good bt) -> (continues_l b = true -> good ct) ->
     runs_as F bt ct (gl glab ga bt ct b n lb) (execs_l sc F b) (sdepth_l b)) /\
  (forall cs l, accepted_sc l cs -> forall bt ct x d n lb, (has_break_c cs = true -> good bt) -> (continues_c cs = true -> good ct) ->
     runs_cases F bt ct x d cs n lb).
Proof.
  apply ssc_ind; cbn [accepted_s accepted_sl accepted_sc has_break has_break_l has_break_c continues continues_l continues_c sdepth sdepth_l].
  - intros e l A bt ct n lb _ _. rewrite gs_pre. apply st_pre. exact (st_expr F bt ct e n A).
  - intros slot i l [I A] bt ct n lb _ _. rewrite gs_pre. apply st_pre. exact (st_decl F bt ct slot i n I A).
  - intros b IH l A bt ct n lb HB HC. rewrite gs_pre. apply st_pre. exact (IH l A bt ct n true HB HC).
  - intros c a IH l (A & B) bt ct n lb HB HC. rewrite gs_pre. apply st_pre.
    exact (st_if F bt ct c n (n + 1) _ _ _ A (IH l B bt ct (n + 1 + nl c)%nat false HB HC)).
  - intros c a IHa b IHb l (A & B & C) bt ct n lb HB HC. rewrite gs_pre. apply st_pre. rewrite orb_true_iff in HB, HC.
    refine (st_ifelse F bt ct c n (n + 1) (n + 2) _ _ _ _ _ _ (is_none (flow_of a)) A (IHa l B bt ct _ false _ _) (IHb l C bt ct _ _ _ _) _); auto.
    intros Nn st st' E. exact (proj1 (flows_s sc F a l st Normal st' B E) (is_none_neq _ Nn) eq_refl).
  - intros c b IH l (A & B) bt ct n lb HB HC. rewrite gs_pre. apply st_pre.
    refine (st_while F bt ct c n (n + 1) (n + 2) _ _ _ (is_none (flow_of b)) A _ _).
    + intros G1 G2. apply (IH true B); auto.
    + intros Nn st st' E. exact (proj1 (flows_s sc F b true st Normal st' B E) (is_none_neq _ Nn) eq_refl).
  - intros b IH c l (A & B) bt ct n lb HB HC. rewrite gs_pre. apply st_pre.
    refine (st_do F bt ct c n (n + 1) (n + 2) _ _ _ _ (do_tests b) A _ _).
    + intros G1 G2. apply (IH true B); auto. intros Cb. apply G2. unfold do_tests. rewrite Cb. apply orb_true_r.
    + intros Dt st o st' E. unfold do_tests in Dt. rewrite orb_false_iff, negb_false_iff in Dt. destruct Dt as [Te Co].
      destruct (flows_s sc F b true st o st' B E) as (X & _ & Y). split; [apply X; now apply terminal_neq|auto].
  - intros i IHi c a b IHb l (A1 & A2 & A3 & A4 & A5) bt ct n lb HB HC. rewrite gs_pre. apply st_pre.
    assert (Ri : runs_as F bt ct (gl glab ga bt ct i (n + 3) true) (execs_l sc F i) (sdepth_l i)).
    { apply (IHi false A1); intros X; [rewrite (proj1 (proj1 (proj2 no_loop) i A1)) in X|rewrite (proj2 (proj1 (proj2 no_loop) i A1)) in X]; discriminate X. }
    assert (Rb : forall lb, good n -> (continues b = true -> good (n + 1)) ->
              runs_as F n (n + 1) (gs glab ga n (n + 1) b (n + 3 + nsl i + nlo c) lb) (execs sc F b) (sdepth b)).
    { intros lb1 G1 G2. apply (IHb true A5); auto. }
    assert (FC : for_continues c b = false -> never_passes (execs sc F b)).
    { unfold for_continues. rewrite !orb_false_iff, !negb_false_iff. intros [[X Y] _] st o st' E.
      destruct (flows_s sc F b true st o st' A5 E) as (U & _ & V). split; [apply U; now apply terminal_neq|].
      apply V. destruct (continues b) eqn:Cb; [|reflexivity]. rewrite (proj1 continues_has b Cb) in X. discriminate X. }
    assert (FE : for_exits c b = true -> for_continues c b = false).
    { unfold for_exits. rewrite andb_true_iff, negb_true_iff. tauto. }
    assert (CC : continues b = true -> for_continues c b = true).
    { intros Cb. unfold for_continues. now rewrite (proj1 continues_has b Cb). }
    destruct (never_taken c) eqn:Nv; [|destruct a as [e|]].
    + rewrite gs_never by exact Nv.
      apply (runs_deeper F bt ct _ (execs sc F (SFor i c a b)) (Z.max (sdepth_l i) 0)); [|pose proof (proj1 (proj2 sdepths) i); lia].
      exact (st_seq F bt ct _ _ _ _ _ _ Ri (st_never F bt ct c (evalo sc a 0) n (execs sc F b) 0 A3 Nv)).
    + rewrite gs_for_adv by exact Nv.
      apply (runs_deeper F bt ct _ (execs sc F (SFor i c (Some e) b)) (Z.max (sdepth_l i) (Z.max (sdepth b) (Z.max (depth_o c) (depth e))))); [|cbn [depth_o]; lia].
      refine (st_seq F bt ct _ _ _ _ _ _ Ri (st_for_adv F bt ct c e n (n + 1) (n + 2) _ _ _ _ _ (for_continues c b) (for_exits c b) A3 A4 _ FC FE)).
      intros G1 G2. apply Rb; auto.
    + rewrite gs_for_plain by exact Nv.
      apply (runs_deeper F bt ct _ (execs sc F (SFor i c None b)) (Z.max (sdepth_l i) (Z.max (sdepth b) (depth_o c)))); [|lia].
      refine (st_seq F bt ct _ _ _ _ _ _ Ri (st_for_plain F bt ct c n (n + 1) _ _ _ _ (for_exits c b) A3 _ _)); auto.
  - intros e cs IH l (A & B & C & D) bt ct n lb HB HC. rewrite gs_pre. apply st_pre.
    exact (st_switch F bt ct e cs n (n + 3) (n + 3 + nl e) A C D (IH l B bt ct n (n + 2)%nat (n + 3 + nl e)%nat false HB HC)).
  - intros l A bt ct n lb HB HC. rewrite gs_pre. apply st_pre. exact (st_break F bt ct 0 (HB eq_refl)).
  - intros l A bt ct n lb HB HC. rewrite gs_pre. apply st_pre. exact (st_continue F bt ct 0 (HC eq_refl)).
  - intros e l A bt ct n lb HB HC. rewrite gs_pre. apply st_pre. exact (st_return F bt ct e n A).
  - intros l A bt ct n lb HB HC. exact (st_nil F bt ct 0).
  - intros s IHs r IHr l (A & B) bt ct n lb HB HC. rewrite orb_true_iff in HB, HC.
    refine (st_seq F bt ct _ _ _ _ _ _ (IHs l A bt ct n lb _ _) (IHr l B bt ct _ _ _ _)); auto.
  - intros l A bt ct x d n lb HB HC k m q p a st v kx L K1 K2 W B H Q. exists kx. change (execs_c sc F v KEnd st) with (Fin Normal st). cbn [pick]. split; [exact W|]. split; [exact B|].
    apply s_fin; [|exact H]. now exists p, a.
  - intros s IH l A bt ct x d n lb HB HC k m q p a st v kx L K1 K2 W B H Q. rewrite gc_default in L, K2. rewrite laid_app in L. destruct L as [L1 L2].
    apply laid_bind in L1 as [W1 _]. change ([Bind d] ++ ?g) with (Bind d :: g) in K2. cbn [size] in K2. rewrite szb, Z.add_0_r in *.
    pose proof (size_nonneg (gs glab ga bt ct s n lb ++ (if is_none (flow_of s) then [JUMP_TO x] else []))).
    change (execs_c sc F v (KDefault s) st) with (execs sc F s st). change (sdepth_c (KDefault s)) with (sdepth s) in Q. exists k. cbn [pick]. split; [lia|]. split; [lia|].
    eapply (st_case F bt ct _ _ _ x kx (is_none (flow_of s)) (IH l A bt ct n lb HB HC)); auto.
    intros Nn st1 st' E. exact (proj1 (flows_s sc F s l st1 Normal st' A E) (is_none_neq _ Nn) eq_refl).
  - intros vs s IHs r IHr l (A & B) bt ct x d n lb HB HC k m q p a st v kx L K1 K2 W Bx H Q. rewrite orb_true_iff in HB, HC.
    rewrite gc_case in L, K2. rewrite laid_app in L. destruct L as [L1 L2]. apply laid_bind in L1 as [W1 _].
    rewrite (app_assoc (gs _ _ _ _ _ _ _)), laid_app in L2. destruct L2 as [L2 L3].
    rewrite (app_assoc (gs _ _ _ _ _ _ _)) in K2. rewrite size_app, (size_app (_ ++ _)) in K2. rewrite szb, ?Z.add_0_r in *.
    set (X := gs glab ga bt ct s (n + 1) lb ++ (if is_none (flow_of s) then [JUMP_TO x] else [])) in *.
    pose proof (size_nonneg X). rewrite ec_case. rewrite dc_case in Q. cbn [pick].
    set (R := gc glab ga bt ct x d r (n + 1 + ns s) (if is_none (flow_of s) then false else ends_in_break s)) in *.
    pose proof (size_nonneg R). destruct (existsb (Z.eqb v) vs).
    + exists k. split; [lia|]. split; [lia|].
      eapply (st_case F bt ct _ _ _ x kx (is_none (flow_of s)) (IHs l A bt ct (n + 1)%nat lb ltac:(tauto) ltac:(tauto))); auto; fold X; try lia.
      intros Nn st1 st' E. exact (proj1 (flows_s sc F s l st1 Normal st' A E) (is_none_neq _ Nn) eq_refl).
    + eapply (IHr l B bt ct x d _ _ ltac:(tauto) ltac:(tauto)); eauto; fold R; lia.
Qed.
End Machine.
