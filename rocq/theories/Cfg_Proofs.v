From Verif Require Import Base Base_Proofs Rt_Model Array_Model Interp_Model Cfg_Model Cfg_Spec.
From Coq Require Import ZifyBool.
Ltac Zify.zify_post_hook ::= Z.div_mod_to_equations.

Lemma mem_z_In x l : mem_z x l = true <-> In x l.
Proof.
  unfold mem_z. rewrite existsb_exists. split.
  - intros (y & H & E). apply Z.eqb_eq in E. congruence.
  - intro H. exists x. split; [exact H|apply Z.eqb_refl].
Qed.

Lemma cbind_good {A B} (m : cres A) (k : A -> cres B) b :
  cbind m k = CGood b -> exists a, m = CGood a /\ k a = CGood b.
Proof. destruct m; cbn; intro H; try discriminate. eauto. Qed.

Lemma cell_at_i32 code i : Forall is_i32 code -> is_i32 (cell_at code i).
Proof.
  intro F. unfold cell_at. destruct (i <? 0); [unfold is_i32, two31; lia|].
  destruct (nth_in_or_default (Z.to_nat i) code 0) as [H|H].
  - exact (proj1 (Forall_forall _ _) F _ H).
  - rewrite H. unfold is_i32, two31; lia.
Qed.

(* ---------- opcodes ---------- *)

Lemma wrap32_two a : exists k, wrap32 a = a + k * two32 /\ is_i32 (wrap32 a).
Proof.
  unfold wrap32, is_i32, two32, two31 in *.
  exists (- ((a + 2147483648) / 4294967296)). lia.
Qed.

(* GetCaseTableSize and the prescan's own count agree for a table that fits in the code. *)
Lemma table_size a n : is_i32 a -> a <= (two31 - 2) / 2 -> n * 4 < two31 ->
  wrap32 (a * 2 + 1) <= n -> wrap32 (a * 2 + 3) = wrap32 (a * 2 + 1) + 2.
Proof.
  intros H A N W. unfold wrap32, is_i32, two32, two31 in *. lia.
Qed.

(* ---------- prescan ---------- *)

Section Pre.
Variable strict : bool.
Variable code : list Z.
Variable m : Z.
Hypothesis CO : code_ok code.
Hypothesis M0 : 0 <= m.

Notation n := (Z.of_nat (length code)).

Lemma jump_target_good op t ts ts' : jump_target code m op t ts = CGood ts' ->
  0 <= t /\ t mod 4 = 0 /\ t < n * 4 /\ m < t / 4 /\ ts' = (if op =? OP_SWITCH then ts else t / 4 :: ts).
Proof.
  unfold jump_target, code_cells. intro H.
  destruct (t <? 0) eqn:E1; [discriminate|].
  destruct (negb (t mod 4 =? 0)) eqn:E2; [discriminate|].
  destruct (n * 4 <=? t) eqn:E3; [discriminate|].
  destruct (t / 4 <=? m) eqn:E4; [discriminate|].
  assert (ts' = (if op =? OP_SWITCH then ts else t / 4 :: ts)) by congruence.
  repeat split; try lia; assumption.
Qed.

(* What is known of an operand that was checked as a jump target. *)
Definition checked (ts : list Z) (o : Z) : Prop := 0 <= o /\ o mod 4 = 0 /\ In (o / 4) ts.

Lemma checked_mono ts ts' o : incl ts ts' -> checked ts o -> checked ts' o.
Proof. intros I (A & B & C). split; [exact A|split; [exact B|apply I; exact C]]. Qed.

Lemma case_targets_good k : forall pos ts ts', case_targets code m k pos ts = CGood ts' ->
  incl ts ts' /\ forall i, (i < k)%nat -> checked ts' (cell_at code (pos + 1 + 2 * Z.of_nat i)).
Proof.
  induction k as [|k IH]; intros pos ts ts' H; cbn [case_targets] in H.
  - split; [|intros; lia]. assert (ts' = ts) by congruence. subst. apply incl_refl.
  - apply cbind_good in H. destruct H as (t1 & H1 & H2). apply jump_target_good in H1.
    destruct H1 as (J1 & J2 & J3 & J4 & J5). change (OP_JUMP =? OP_SWITCH) with false in J5. cbv iota in J5.
    destruct (IH _ _ _ H2) as (I & C). split.
    + intros x X. apply I. rewrite J5. right; exact X.
    + intros i L. destruct i as [|i].
      * replace (pos + 1 + 2 * Z.of_nat 0) with (pos + 1) by lia.
        split; [lia|split; [lia|]]. apply I. rewrite J5. left; reflexivity.
      * replace (pos + 1 + 2 * Z.of_nat (S i)) with (pos + 2 + 1 + 2 * Z.of_nat i) by lia. apply C. lia.
Qed.

(* What the prescan leaves behind for the instruction at [c]: it is one of the method, the operand of
   a jump and the offsets of a table have been checked. *)
Definition scanned (ts : list Z) (c : Z) : Prop :=
  insn_of code m c /\
  (is_jump (cell_at code c) = true -> checked ts (cell_at code (c + 1))) /\
  (cell_at code c = OP_SWITCH -> 0 <= cell_at code (c + 1) /\ cell_at code (c + 1) mod 4 = 0) /\
  (cell_at code c = OP_CASETBL -> checked ts (cell_at code (c + 2)) /\
     c + 3 + 2 * Z.max 0 (cell_at code (c + 1)) <= n /\
     forall k, 0 <= k < cell_at code (c + 1) -> checked ts (cell_at code (c + 4 + 2 * k))).

Lemma scanned_mono ts ts' c : incl ts ts' -> scanned ts c -> scanned ts' c.
Proof.
  intros I (A & B & C & D). split; [exact A|split; [|split; [exact C|]]].
  - intro J. eapply checked_mono; [exact I|exact (B J)].
  - intro E. destruct (D E) as (D1 & D3 & D2). split; [eapply checked_mono; [exact I|exact D1]|split; [exact D3|]].
    intros k K. eapply checked_mono; [exact I|exact (D2 k K)].
Qed.

Definition pre_inv (cip : Z) (insns ts : list Z) : Prop :=
  swept code m cip /\
  (forall c, In c insns -> scanned ts c /\ (In (c + insn_size code c) insns \/ c + insn_size code c = cip)) /\
  (In (m + 1) insns \/ cip = m + 1).

Lemma is_jump_switch op : is_jump op = true -> op <> OP_SWITCH /\ op <> OP_CASETBL /\ op <> OP_RETN /\ op <> OP_PROC.
Proof.
  unfold is_jump. rewrite existsb_exists. intros (x & I & E). apply Z.eqb_eq in E. subst x.
  cbn in I. unfold OP_SWITCH, OP_CASETBL, OP_RETN, OP_PROC. intuition lia.
Qed.

Lemma is_jump_size op : is_jump op = true -> opcode_size op = 2.
Proof.
  unfold is_jump. rewrite existsb_exists. intros (x & I & E). apply Z.eqb_eq in E. subst x.
  cbn in I. intuition (subst; reflexivity).
Qed.

Lemma opcode_size_range op : opcode_size op = -1 \/ 0 <= opcode_size op <= 6.
Proof.
  unfold opcode_size.
  destruct op as [|p|p]; [lia| |lia].
  do 8 (destruct p as [p|p|]; try lia).
Qed.

Lemma opcode_size_neg op : opcode_size op = -1 -> op = OP_CASETBL.
Proof.
  unfold opcode_size, OP_CASETBL.
  destruct op as [|p|p]; [lia| |lia].
  do 8 (destruct p as [p|p|]; try lia).
Qed.

Lemma prescan_loop_inv fuel : forall cip insns ts pr,
  pre_inv cip insns ts -> prescan_loop strict code m fuel cip insns ts = CGood pr ->
  pre_inv (pr_stop pr) (pr_insns pr) (pr_targets pr).
Proof.
  induction fuel as [|f IH]; intros cip insns ts pr I H; [discriminate|].
  cbn [prescan_loop] in H. unfold code_cells in H.
  destruct (n <? cip + 1) eqn:EM; [assert (pr = mkPre insns ts cip) as -> by congruence; exact I|].
  destruct (cip <? 0) eqn:P0; [discriminate|].
  destruct ((cell_at code cip =? OP_PROC) || (cell_at code cip =? OP_ENDPROC)) eqn:EP;
    [assert (pr = mkPre insns ts cip) as -> by congruence; exact I|].
  destruct ((cell_at code cip <=? 0) || (OPCODES_LAST <=? cell_at code cip)) eqn:EO; [discriminate|].
  apply cbind_good in H. destruct H as ((c1 & params) & H1 & H2).
  cbv beta iota in H2.
  destruct (strict && (params <? 0)) eqn:ES; [discriminate|].
  destruct (n <? c1 + params) eqn:EN; [discriminate|].
  apply cbind_good in H2. destruct H2 as (ts' & H2 & H3).
  destruct CO as (CI & CL).
  assert (SZ : c1 + params = cip + insn_size code cip /\ opcode_size (cell_at code cip) <> 0 /\
               (cell_at code cip = OP_CASETBL -> c1 = cip + 2 /\ params = wrap32 (cell_at code (cip + 1) * 2 + 1)) /\
               (cell_at code cip <> OP_CASETBL -> c1 = cip + 1)).
  { unfold insn_size. destruct (cell_at code cip =? OP_CASETBL) eqn:EC.
    - destruct (n <? cip + 2) eqn:E2; [discriminate|].
      destruct ((two31 - 2) / 2 <? cell_at code (cip + 1)) eqn:E3; [discriminate|].
      assert (c1 = cip + 2 /\ params = wrap32 (cell_at code (cip + 1) * 2 + 1)) as (-> & ->) by (split; congruence).
      pose proof (cell_at_i32 code (cip + 1) CI) as K.
      rewrite (table_size (cell_at code (cip + 1)) n K) by lia.
      assert (cell_at code cip = OP_CASETBL) as -> by lia.
      split; [lia|split; [unfold OP_CASETBL; cbn; lia|split; [intros _; split; reflexivity|lia]]].
    - destruct (opcode_size (cell_at code cip) =? 0) eqn:E2; [destruct strict; discriminate|].
      assert (c1 = cip + 1 /\ params = opcode_size (cell_at code cip) - 1) as (-> & ->) by (split; congruence).
      split; [lia|split; [lia|split; lia]]. }
  destruct SZ as (SZ & SZ0 & SC & SN).
  assert (IA : instr_at code cip) by (unfold instr_at; repeat split; lia).
  destruct I as (I1 & I2 & I3).
  assert (IC : incl ts ts' /\ scanned ts' cip).
  { destruct (is_control (cell_at code cip) && negb (cell_at code cip =? OP_RETN)) eqn:EC.
    - apply jump_target_good in H2. destruct H2 as (J1 & J2 & J3 & J4 & J5).
      assert (cell_at code cip <> OP_CASETBL).
      { intro X. rewrite X in EC. discriminate EC. }
      rewrite (SN H) in *.
      split.
      + rewrite J5. destruct (cell_at code cip =? OP_SWITCH); [apply incl_refl|apply incl_tl, incl_refl].
      + split; [split; [exact I1|exact IA]|]. split; [|split; [|contradiction]].
        * intro J. apply is_jump_switch in J. destruct (cell_at code cip =? OP_SWITCH) eqn:E; [lia|].
          split; [lia|split; [lia|]]. rewrite J5. left; reflexivity.
        * intros _. lia.
    - assert (NJ : is_jump (cell_at code cip) = false /\ cell_at code cip <> OP_SWITCH).
      { unfold is_control in EC. destruct (is_jump (cell_at code cip)) eqn:J.
        - apply is_jump_switch in J. lia.
        - split; [reflexivity|]. intro X. rewrite X in EC. discriminate EC. }
      destruct (cell_at code cip =? OP_CASETBL) eqn:ET.
      + destruct (SC ltac:(lia)) as (-> & PE). clear SC.
        unfold casetable, code_cells in H2.
        destruct ((cip + 2 <? 0) || (n <=? cip + 2)) eqn:EB; [discriminate|].
        apply cbind_good in H2. destruct H2 as (t1 & H2 & H4). apply jump_target_good in H2.
        destruct H2 as (J1 & J2 & J3 & J4 & J5). change (OP_JUMP =? OP_SWITCH) with false in J5. cbv iota in J5.
        apply case_targets_good in H4. destruct H4 as (K1 & K2).
        split; [intros x X; apply K1; rewrite J5; right; exact X|].
        split; [split; [exact I1|exact IA]|]. split; [rewrite (proj1 NJ); discriminate|].
        split; [tauto|]. intros _.
        split; [split; [lia|split; [lia|apply K1; rewrite J5; left; reflexivity]]|].
        assert (W : 0 <= cell_at code (cip + 1) ->
                    wrap32 (cell_at code (cip + 1) * 2 + 1) = cell_at code (cip + 1) * 2 + 1).
        { intro GE. destruct (n <? cip + 2) eqn:E2; [discriminate|].
          destruct ((two31 - 2) / 2 <? cell_at code (cip + 1)) eqn:E3; [discriminate|].
          apply wrap32_id. unfold is_i32, two31 in *. lia. }
        split.
        { destruct (Z.le_gt_cases 0 (cell_at code (cip + 1))) as [GE|LT]; [|lia].
          rewrite PE, (W GE) in EN. lia. }
        intros k K.
        replace (cip + 4 + 2 * k) with (cip + 2 + 1 + 1 + 2 * Z.of_nat (Z.to_nat k)) by lia. apply K2.
        rewrite PE, (W ltac:(lia)). lia.
      + assert (ts' = ts) as -> by congruence. split; [apply incl_refl|].
        split; [split; [exact I1|exact IA]|]. split; [rewrite (proj1 NJ); discriminate|].
        split; [tauto|lia]. }
  destruct IC as (IC & SCN).
  apply (IH (c1 + params) (cip :: insns) ts' pr); [|exact H3].
  rewrite SZ. split; [apply swept_next; assumption|]. split.
  - intros c [<-|X]; [split; [exact SCN|right; reflexivity]|].
    destruct (I2 c X) as (A & [B|B]).
    + split; [eapply scanned_mono; [exact IC|exact A]|left; right; exact B].
    + split; [eapply scanned_mono; [exact IC|exact A]|left; left; symmetry; exact B].
  - left. destruct I3 as [I3|I3]; [right; exact I3|left; exact I3].
Qed.


Lemma prescan_inv fuel pr : prescan strict code m fuel = CGood pr ->
  pre_inv (pr_stop pr) (pr_insns pr) (pr_targets pr).
Proof.
  unfold prescan. intro H. destruct (code_cells code <? m + 1); [discriminate|].
  destruct (negb (cell_at code m =? OP_PROC)); [discriminate|].
  eapply prescan_loop_inv; [|exact H]. split; [apply swept_first|split; [|right; reflexivity]].
  intros c [].
Qed.

(* ---------- scan ---------- *)

Section Scan.
Variable pr : pre.
Hypothesis PI : pre_inv (pr_stop pr) (pr_insns pr) (pr_targets pr).

Notation insns := (pr_insns pr).

(* Everything that can be executed from [c] on ends in a block of [K]. *)
Inductive walk (K : list Z) : Z -> Prop :=
| w_ret c : In c insns -> cell_at code c = OP_RETN -> walk K c
| w_jump c : In c insns -> cell_at code c = OP_JUMP -> In (cell_at code (c + 1) / 4) K -> walk K c
| w_cond c : In c insns -> is_jump (cell_at code c) = true -> In (cell_at code (c + 1) / 4) K ->
    In (c + 2) K -> walk K c
| w_switch c : In c insns -> cell_at code c = OP_SWITCH -> In (cell_at code (c + 1) / 4) insns ->
    cell_at code (cell_at code (c + 1) / 4) = OP_CASETBL ->
    Forall (fun o => In (o / 4) K) (table_offsets code (cell_at code (c + 1) / 4)) -> walk K c
| w_fall c : In c insns -> is_control (cell_at code c) = false -> walk K (c + insn_size code c) -> walk K c
| w_join c : In c insns -> is_control (cell_at code c) = false -> In (c + insn_size code c) K -> walk K c.

Lemma walk_mono K K' c : incl K K' -> walk K c -> walk K' c.
Proof.
  intros I W. induction W.
  - apply w_ret; assumption.
  - apply w_jump; auto.
  - apply w_cond; auto.
  - apply w_switch; auto. eapply Forall_impl; [|eassumption]. cbv beta. auto.
  - apply w_fall; auto.
  - apply w_join; auto.
Qed.

Lemma get_or_add_spec b g : let g' := get_or_add b g in
  In b (g_known g') /\ incl (g_known g) (g_known g') /\ incl (g_queue g) (g_queue g') /\
  (forall x, In x (g_known g') -> In x (g_known g) \/ x = b /\ In x (g_queue g')) /\
  (forall x, In x (g_queue g') -> In x (g_queue g) \/ x = b).
Proof.
  unfold get_or_add. cbv zeta. destruct (mem_z b (g_known g)) eqn:E.
  - apply mem_z_In in E. repeat (split; [first [exact E|apply incl_refl]|]).
    split; intros x X; left; exact X.
  - cbn. split; [left; reflexivity|]. split; [apply incl_tl, incl_refl|]. split; [apply incl_tl, incl_refl|].
    split; intros x [<-|X]; auto.
Qed.

(* [g'] extends [g]: blocks only get added, new ones are queued and are instructions. *)
Definition ext (g g' : graph) : Prop :=
  incl (g_known g) (g_known g') /\ incl (g_queue g) (g_queue g') /\
  (forall x, In x (g_known g') -> In x (g_known g) \/ In x (g_queue g')) /\
  (forall x, In x (g_queue g') -> In x (g_queue g) \/ In x insns).

Lemma ext_refl g : ext g g.
Proof. split; [apply incl_refl|split; [apply incl_refl|split; intros x X; left; exact X]]. Qed.

Lemma ext_trans a b c : ext a b -> ext b c -> ext a c.
Proof.
  intros (A1 & A2 & A3 & A4) (B1 & B2 & B3 & B4).
  split; [eapply incl_tran; eassumption|]. split; [eapply incl_tran; eassumption|].
  split; intros x X.
  - destruct (B3 x X) as [Y|Y]; [|right; exact Y]. destruct (A3 x Y) as [Z|Z]; [left; exact Z|right; apply B2; exact Z].
  - destruct (B4 x X) as [Y|Y]; [|right; exact Y]. exact (A4 x Y).
Qed.

Lemma ext_same g g' : g_known g' = g_known g -> g_queue g' = g_queue g -> ext g g'.
Proof. unfold ext. intros -> ->. split; [apply incl_refl|split; [apply incl_refl|split; intros x X; left; exact X]]. Qed.

Lemma ext_add b g : In b insns -> ext g (get_or_add b g) /\ In b (g_known (get_or_add b g)).
Proof.
  intro I. destruct (get_or_add_spec b g) as (A & B & C & D & E). split; [|exact A].
  split; [exact B|split; [exact C|split; intros x X]].
  - destruct (D x X) as [Y|(_ & Y)]; auto.
  - destruct (E x X) as [Y| ->]; auto.
Qed.

Lemma is_insn_In c : is_insn pr c = true <-> In c insns.
Proof. apply mem_z_In. Qed.

Lemma add_cases_spec cur offs : forall g g', add_cases strict pr cur offs g = FEnded g' ->
  ext g g' /\ Forall (fun o => In (o / 4) (g_known g')) offs.
Proof.
  induction offs as [|o rest IH]; intros g g' H; cbn [add_cases] in H.
  - assert (g' = g) as -> by congruence. split; [apply ext_refl|constructor].
  - destruct (negb (is_insn pr (o / 4))) eqn:E1; [discriminate|].
    destruct (strict && negb (is_target pr (o / 4))); [discriminate|].
    apply IH in H. destruct H as (X & F).
    assert (I : In (o / 4) insns) by (apply is_insn_In; destruct (is_insn pr (o / 4)); [reflexivity|discriminate]).
    destruct (ext_add (o / 4) g I) as (X1 & K1).
    split.
    + eapply ext_trans; [exact X1|]. eapply ext_trans; [|exact X]. apply ext_same; reflexivity.
    + constructor; [|exact F]. destruct X as (X & _). apply X. exact K1.
Qed.

Lemma scan_flow_spec cur cip g g' :
  scan_flow strict code pr cur cip g = FEnded g' -> In cip insns \/ cip = pr_stop pr ->
  ext g g' /\ ((In cip (g_known g') /\ cur <> cip) \/ walk (g_known g') cip).
Proof.
  unfold scan_flow, stop. intros H IN.
  destruct (pr_stop pr <? cip + 1) eqn:EM; [discriminate|].
  assert (I : In cip insns) by (destruct IN; [assumption|lia]). clear IN.
  destruct (strict && negb (is_insn pr cip)); [discriminate|].
  destruct (is_target pr cip && negb (cur =? cip)) eqn:ET.
  { assert (g' = set_end cur cip (add_edge cur cip (get_or_add cip g))) as -> by congruence.
    destruct (ext_add cip g I) as (X & K). split; [|left; split; [exact K|lia]].
    eapply ext_trans; [exact X|]. apply ext_same; reflexivity. }
  cbv zeta in H.
  destruct (negb (is_control (cell_at code cip))) eqn:EC; [discriminate|].
  destruct (cell_at code cip =? OP_RETN) eqn:ER.
  { assert (g' = set_end cur (cip + 1) g) as -> by congruence.
    split; [apply ext_same; reflexivity|right; apply w_ret; [exact I|lia]]. }
  destruct (negb (is_insn pr (cell_at code (cip + 1) / 4))) eqn:EI; [discriminate|].
  assert (J : In (cell_at code (cip + 1) / 4) insns)
    by (apply is_insn_In; destruct (is_insn pr (cell_at code (cip + 1) / 4)); [reflexivity|discriminate]).
  destruct (cell_at code cip =? OP_SWITCH) eqn:ESW.
  { unfold scan_switch in H.
    destruct (negb (is_insn pr (cell_at code (cip + 1) / 4))); [discriminate|].
    destruct (negb (cell_at code (cell_at code (cip + 1) / 4) =? OP_CASETBL)) eqn:E1; [discriminate|].
    cbv zeta in H.
    destruct (code_cells code <? _) eqn:E2; [discriminate|].
    destruct (add_cases strict pr cur (table_offsets code (cell_at code (cip + 1) / 4)) g) as [|g1| |] eqn:EA;
      try discriminate.
    apply add_cases_spec in EA. destruct EA as (X & F).
    assert (g' = set_end cur (cip + opcode_size OP_SWITCH) g1) as -> by congruence.
    split; [eapply ext_trans; [exact X|apply ext_same; reflexivity]|].
    right. apply w_switch; try assumption; lia. }
  assert (IJ : is_jump (cell_at code cip) = true).
  { unfold is_control in EC. destruct (is_jump (cell_at code cip)); [reflexivity|lia]. }
  destruct (strict && negb (is_target pr (cell_at code (cip + 1) / 4))); [discriminate|].
  destruct (ext_add _ g J) as (X & K).
  destruct (cell_at code cip =? OP_JUMP) eqn:EJ.
  { assert (g' = set_end cur (cip + 2) (add_edge cur (cell_at code (cip + 1) / 4)
                   (get_or_add (cell_at code (cip + 1) / 4) g))) as -> by congruence.
    split; [eapply ext_trans; [exact X|apply ext_same; reflexivity]|].
    right. apply w_jump; [exact I|lia|exact K]. }
  destruct (pr_stop pr <? cip + 2 + 1) eqn:EN; [discriminate|].
  assert (SZ : insn_size code cip = 2).
  { unfold insn_size. pose proof (is_jump_switch _ IJ).
    destruct (cell_at code cip =? OP_CASETBL) eqn:E; [lia|]. exact (is_jump_size _ IJ). }
  assert (I2 : In (cip + 2) insns).
  { destruct PI as (_ & P & _). destruct (P cip I) as (_ & [Q|Q]); rewrite SZ in Q; [exact Q|lia]. }
  destruct (ext_add (cip + 2) (get_or_add (cell_at code (cip + 1) / 4) g) I2) as (X2 & K2).
  match type of H with FEnded ?x = _ => assert (g' = x) as -> by congruence end.
  split; [eapply ext_trans; [exact X|]; eapply ext_trans; [exact X2|]; apply ext_same; reflexivity|].
  right. apply w_cond; [exact I|exact IJ| |exact K2]. destruct X2 as (X2 & _). apply X2. exact K.
Qed.

Lemma scan_flow_cont cur cip g : scan_flow strict code pr cur cip g = FContinue ->
  In cip insns \/ cip = pr_stop pr -> In cip insns /\ is_control (cell_at code cip) = false.
Proof.
  unfold scan_flow, stop. intros H IN.
  destruct (pr_stop pr <? cip + 1) eqn:EM; [discriminate|].
  assert (I : In cip insns) by (destruct IN; [assumption|lia]). clear IN. split; [exact I|].
  destruct (strict && negb (is_insn pr cip)); [discriminate|].
  destruct (is_target pr cip && negb (cur =? cip)); [discriminate|].
  cbv zeta in H.
  destruct (is_control (cell_at code cip)); [|reflexivity]. exfalso. cbn [negb] in H.
  destruct (cell_at code cip =? OP_RETN); [discriminate|].
  destruct (negb (is_insn pr (cell_at code (cip + 1) / 4))); [discriminate|].
  destruct (cell_at code cip =? OP_SWITCH).
  { unfold scan_switch in H.
    destruct (negb (is_insn pr (cell_at code (cip + 1) / 4))); [discriminate|].
    destruct (negb (cell_at code (cell_at code (cip + 1) / 4) =? OP_CASETBL)); [discriminate|].
    cbv zeta in H. destruct (code_cells code <? _); [discriminate|].
    assert (A : forall offs g1, add_cases strict pr cur offs g1 <> FContinue).
    { induction offs as [|o r IH]; intros g1 Q; cbn [add_cases] in Q; [discriminate|].
      destruct (negb (is_insn pr (o / 4))); [discriminate|].
      destruct (strict && negb (is_target pr (o / 4))); [discriminate|]. exact (IH _ Q). }
    destruct (add_cases strict pr cur (table_offsets code (cell_at code (cip + 1) / 4)) g) eqn:EA; try discriminate.
    exact (A _ _ EA). }
  destruct (strict && negb (is_target pr (cell_at code (cip + 1) / 4))); [discriminate|].
  destruct (cell_at code cip =? OP_JUMP); [discriminate|].
  destruct (pr_stop pr <? cip + 2 + 1); discriminate.
Qed.

Lemma scan_loop_spec fuel : forall cur cip g g',
  scan_loop strict code pr fuel cur cip g = CGood g' ->
  In cip insns \/ cip = pr_stop pr ->
  (forall x, In x (g_queue g) -> In x insns) ->
  incl (g_known g) (g_known g') /\
  ((In cip (g_known g') /\ cur <> cip) \/ walk (g_known g') cip) /\
  (forall b, In b (g_queue g) -> walk (g_known g') b) /\
  (forall b, In b (g_known g') -> In b (g_known g) \/ walk (g_known g') b).
Proof.
  induction fuel as [|f IH]; intros cur cip g g' H IN Q; [discriminate|].
  cbn [scan_loop] in H.
  destruct (scan_flow strict code pr cur cip g) as [|g1|e|u] eqn:EF; try discriminate.
  - apply scan_flow_cont in EF; [|exact IN]. destruct EF as (I & NC).
    assert (IN' : In (cip + insn_size code cip) insns \/ cip + insn_size code cip = pr_stop pr).
    { destruct PI as (_ & P & _). exact (proj2 (P cip I)). }
    destruct (IH _ _ _ _ H IN' Q) as (A & B & C & D).
    split; [exact A|split; [|split; [exact C|exact D]]].
    right. destruct B as [(B & _)|B]; [apply w_join|apply w_fall]; assumption.
  - destruct (scan_flow_spec cur cip g g1 EF IN) as ((X1 & X2 & X3 & X4) & W).
    assert (Q1 : forall x, In x (g_queue g1) -> In x insns).
    { intros x X. destruct (X4 x X) as [Y|Y]; [exact (Q x Y)|exact Y]. }
    destruct (g_queue g1) as [|b q] eqn:EQ.
    + assert (g' = g1) as -> by congruence.
      split; [exact X1|split; [exact W|split]].
      * intros x X. destruct (X2 x X).
      * intros x X. destruct (X3 x X) as [Y|[]]. left; exact Y.
    + assert (H' := H). apply IH in H'; [|left; apply Q1; left; reflexivity|
        cbn [g_queue]; intros x X; apply Q1; right; exact X].
      cbn [g_known g_queue] in H'. destruct H' as (A & B & C & D).
      assert (WB : walk (g_known g') b) by (destruct B as [(_ & B)|B]; [contradiction|exact B]).
      assert (WQ : forall x, In x (b :: q) -> walk (g_known g') x).
      { intros x [<-|X]; [exact WB|exact (C x X)]. }
      split; [eapply incl_tran; [exact X1|exact A]|].
      split; [|split].
      * destruct W as [(W & NE)|W]; [left; split; [apply A; exact W|exact NE]|right; eapply walk_mono; [exact A|exact W]].
      * intros x X. apply WQ. exact (X2 x X).
      * intros x X. destruct (D x X) as [Y|Y]; [|right; exact Y].
        destruct (X3 x Y) as [Z|Z]; [left; exact Z|right; exact (WQ x Z)].
Qed.

Lemma scan_spec fuel g : scan strict code m pr fuel = CGood g ->
  (forall b, In b (g_known g) -> walk (g_known g) b) /\ walk (g_known g) (m + 1).
Proof.
  unfold scan. intro H.
  assert (IN : In (m + 1) insns \/ m + 1 = pr_stop pr).
  { destruct PI as (_ & _ & [P|P]); [left; exact P|right; symmetry; exact P]. }
  apply scan_loop_spec in H; [|exact IN|intros x []].
  cbn [g_known g_queue] in H. destruct H as (_ & B & _ & D).
  assert (K : forall b, In b (g_known g) -> walk (g_known g) b).
  { intros b X. destruct (D b X) as [[]|W]; exact W. }
  split; [exact K|]. destruct B as [(B & _)|B]; [exact (K _ B)|exact B].
Qed.

End Scan.
End Pre.

(* ---------- the decoder ---------- *)

Lemma decode_jump code pc o : decode code pc = Some (JUMP o) ->
  cell_at code pc = OP_JUMP /\ o = cell_at code (pc + 1).
Proof.
  unfold decode. cbv zeta. intro H. destruct (cell_at code pc) as [|p|p]; try discriminate H.
  do 8 (try (destruct p as [p|p|]; try discriminate H)); try (split; [reflexivity|congruence]).
Qed.

Lemma decode_jcmp code pc c o : decode code pc = Some (JCMP c o) ->
  is_jump (cell_at code pc) = true /\ cell_at code pc <> OP_JUMP /\ o = cell_at code (pc + 1).
Proof.
  unfold decode. cbv zeta. intro H. destruct (cell_at code pc) as [|p|p]; try discriminate H.
  do 8 (try (destruct p as [p|p|]; try discriminate H));
    (split; [reflexivity|split; [unfold OP_JUMP; lia|congruence]]).
Qed.

Lemma decode_switch code pc o : decode code pc = Some (SWITCH o) ->
  cell_at code pc = OP_SWITCH /\ o = cell_at code (pc + 1).
Proof.
  unfold decode. cbv zeta. intro H. destruct (cell_at code pc) as [|p|p]; try discriminate H.
  do 8 (try (destruct p as [p|p|]; try discriminate H)); try (split; [reflexivity|congruence]).
Qed.

Lemma decode_retn code pc : decode code pc = Some RETN <-> cell_at code pc = OP_RETN.
Proof.
  split.
  - unfold decode. cbv zeta. intro H. destruct (cell_at code pc) as [|p|p]; try discriminate H.
    do 8 (try (destruct p as [p|p|]; try discriminate H)); reflexivity.
  - intro H. unfold decode. rewrite H. reflexivity.
Qed.

Lemma decode_proc code pc : decode code pc = Some PROC \/ decode code pc = Some ENDPROC ->
  cell_at code pc = OP_PROC \/ cell_at code pc = OP_ENDPROC.
Proof.
  unfold decode. cbv zeta. intro H. destruct (cell_at code pc) as [|p|p]; try (destruct H; discriminate).
  do 8 (try (destruct p as [p|p|]; try (destruct H; discriminate))); first [left; reflexivity|right; reflexivity].
Qed.

Lemma decode_some code pc : opcode_size (cell_at code pc) <> 0 -> cell_at code pc <> 0 -> decode code pc <> None.
Proof.
  unfold decode, opcode_size. cbv zeta. intros H N. destruct (cell_at code pc) as [|p|p]; [lia| |lia].
  do 8 (try (destruct p as [p|p|]; try discriminate; try lia)).
Qed.

Lemma is_control_cases op : is_control op = true <-> is_jump op = true \/ op = OP_RETN \/ op = OP_SWITCH.
Proof. unfold is_control. destruct (is_jump op); split; intro H; try tauto; lia. Qed.

Lemma decode_of_jump code pc : is_jump (cell_at code pc) = true ->
  (cell_at code pc = OP_JUMP /\ decode code pc = Some (JUMP (cell_at code (pc + 1)))) \/
  (exists c, decode code pc = Some (JCMP c (cell_at code (pc + 1)))).
Proof.
  unfold is_jump. rewrite existsb_exists. intros (x & I & E). apply Z.eqb_eq in E. subst x.
  unfold decode. cbv zeta. cbn in I.
  destruct I as [I|I]; [rewrite <- I; left; split; reflexivity|right].
  intuition (try (rewrite <- H; eexists; reflexivity)).
  all: rewrite <- H0; eexists; reflexivity.
Qed.

(* ---------- C09: flow stays on instructions ---------- *)

Lemma in_case_offsets code k : forall pos i, 0 <= i < Z.of_nat k ->
  In (cell_at code (pos + 1 + 2 * i)) (case_offsets code k pos).
Proof.
  induction k as [|k IH]; intros pos i L; [lia|]. cbn [case_offsets].
  destruct (Z.eq_dec i 0) as [->|NE]; [left; f_equal; lia|right].
  replace (pos + 1 + 2 * i) with (pos + 2 + 1 + 2 * (i - 1)) by lia. apply IH. lia.
Qed.

Section Flow.
Variable code : list Z.
Variable m : Z.
Hypothesis CO : code_ok code.
Hypothesis M0 : 0 <= m.

Lemma accepted_walk : accepted code m -> exists pr K,
  pre_inv code m (pr_stop pr) (pr_insns pr) (pr_targets pr) /\
  (forall b, In b K -> walk code pr K b) /\ walk code pr K (m + 1).
Proof.
  intros (strict & fuel & x & H). unfold scan_method in H.
  apply cbind_good in H. destruct H as (pr & H1 & H2).
  apply cbind_good in H2. destruct H2 as (g & H2 & _).
  apply prescan_inv in H1; [|exact CO].
  exists pr, (g_known g). split; [exact H1|]. exact (scan_spec strict code m pr H1 fuel g H2).
Qed.

Lemma walk_in pr K c : walk code pr K c -> In c (pr_insns pr).
Proof. destruct 1; assumption. Qed.

Lemma size_jump c : is_jump (cell_at code c) = true -> insn_size code c = 2.
Proof.
  intro J. unfold insn_size. destruct (is_jump_switch _ J) as (_ & N & _).
  destruct (cell_at code c =? OP_CASETBL) eqn:E; [lia|]. apply is_jump_size. exact J.
Qed.

Lemma walk_falls pr K c : (forall b, In b K -> walk code pr K b) -> walk code pr K c ->
  falls_through code c -> walk code pr K (c + insn_size code c).
Proof.
  intros KW W F. unfold falls_through in F. destruct W as [c I E|c I E T|c I J T N|c I E T C A|c I NC W|c I NC W].
  - apply decode_retn in E. rewrite E in F. destruct F.
  - destruct (decode_of_jump code c) as [(_ & D)|(x & D)]; [rewrite E; reflexivity| |]; rewrite D in F; [destruct F|].
    apply decode_jcmp in D. lia.
  - rewrite (size_jump c J). exact (KW _ N).
  - unfold decode in F. rewrite E in F. destruct F.
  - exact W.
  - exact (KW _ W).
Qed.

Lemma not_control_decode c : is_control (cell_at code c) = false ->
  match decode code c with Some (JUMP _) | Some (JCMP _ _) | Some (SWITCH _) | Some RETN => False | _ => True end.
Proof.
  intro N. destruct (decode code c) as [i|] eqn:D; [|exact I]. destruct i; try exact I.
  - apply decode_retn in D. rewrite D in N. discriminate.
  - apply decode_jump in D. rewrite (proj1 D) in N. discriminate.
  - apply decode_jcmp in D. unfold is_control in N. rewrite (proj1 D) in N. discriminate.
  - apply decode_switch in D. rewrite (proj1 D) in N. discriminate.
Qed.

Lemma walk_jumps pr K c o : pre_inv code m (pr_stop pr) (pr_insns pr) (pr_targets pr) ->
  (forall b, In b K -> walk code pr K b) -> walk code pr K c ->
  jumps_to code c o -> 0 <= o /\ o mod 4 = 0 /\ walk code pr K (o / 4).
Proof.
  intros (_ & P & _) KW W F. unfold jumps_to in F. destruct W as [c I E|c I E T|c I J T N|c I E T C A|c I NC W|c I NC W].
  - apply decode_retn in E. rewrite E in F. destruct F.
  - destruct (P c I) as ((_ & S & _) & _).
    assert (J : is_jump (cell_at code c) = true) by (rewrite E; reflexivity).
    destruct (S J) as (S1 & S2 & _).
    destruct (decode_of_jump code c J) as [(_ & D)|(x & D)]; rewrite D in F; subst o;
      exact (conj S1 (conj S2 (KW _ T))).
  - destruct (P c I) as ((_ & S & _) & _). destruct (S J) as (S1 & S2 & _).
    destruct (decode_of_jump code c J) as [(_ & D)|(x & D)]; rewrite D in F; subst o;
      exact (conj S1 (conj S2 (KW _ T))).
  - destruct (P _ T) as ((_ & _ & _ & S) & _). destruct (S C) as (S1 & _ & S2).
    assert (D : decode code c = Some (SWITCH (cell_at code (c + 1)))) by (unfold decode; rewrite E; reflexivity).
    rewrite D in F. rewrite Forall_forall in A.
    destruct F as [->|(k & L & ->)].
    + destruct S1 as (S1 & S3 & _). split; [exact S1|split; [exact S3|]]. apply KW. apply A. left; reflexivity.
    + destruct (S2 k L) as (S3 & S4 & _). split; [exact S3|split; [exact S4|]]. apply KW. apply A. right.
      replace (cell_at code (c + 1) / 4 + 4 + 2 * k) with (cell_at code (c + 1) / 4 + 3 + 1 + 2 * k) by lia.
      apply in_case_offsets. lia.
  - pose proof (not_control_decode c NC) as Q. destruct (decode code c) as [[]|]; contradiction.
  - pose proof (not_control_decode c NC) as Q. destruct (decode code c) as [[]|]; contradiction.
Qed.

Lemma reaches_walk pr K : pre_inv code m (pr_stop pr) (pr_insns pr) (pr_targets pr) ->
  (forall b, In b K -> walk code pr K b) -> walk code pr K (m + 1) ->
  forall pc, reaches code m pc -> walk code pr K pc.
Proof.
  intros P KW W0 pc R. induction R as [|pc R IH F|pc o R IH F].
  - exact W0.
  - exact (walk_falls pr K pc KW IH F).
  - exact (proj2 (proj2 (walk_jumps pr K pc o P KW IH F))).
Qed.

Lemma flow_ok pc : accepted code m -> reaches code m pc ->
  insn_of code m pc /\ decode code pc <> None /\
  (falls_through code pc -> insn_of code m (pc + insn_size code pc)) /\
  (forall o, jumps_to code pc o -> 0 <= o /\ o mod 4 = 0 /\ insn_of code m (o / 4)).
Proof.
  intros A R. destruct (accepted_walk A) as (pr & K & P & KW & W0).
  assert (L : forall c, walk code pr K c -> insn_of code m c).
  { intros c W. apply walk_in in W. destruct P as (_ & P & _). exact (proj1 (proj1 (P c W))). }
  pose proof (reaches_walk pr K P KW W0 pc R) as W.
  split; [exact (L pc W)|]. split.
  - destruct (L pc W) as (_ & I). destruct I as (_ & _ & _ & I1 & I2 & _). exact (decode_some code pc I2 I1).
  - split.
    + intro F. apply L. exact (walk_falls pr K pc KW W F).
    + intros o J. destruct (walk_jumps pr K pc o P KW W J) as (J1 & J2 & J3).
      split; [exact J1|split; [exact J2|exact (L _ J3)]].
Qed.

(* The table a reachable switch uses. *)
Lemma flow_switch pc t : accepted code m -> reaches code m pc -> decode code pc = Some (SWITCH t) ->
  0 <= t /\ insn_of code m (t / 4) /\ cell_at code (t / 4) = OP_CASETBL /\ t / 4 + 3 + 2 * Z.max 0 (cell_at code (t / 4 + 1)) <= Z.of_nat (length code).
Proof.
  intros A R D. destruct (accepted_walk A) as (pr & K & P & KW & W0).
  pose proof (reaches_walk pr K P KW W0 pc R) as W. apply decode_switch in D. destruct D as (E & ->).
  assert (Q : In (cell_at code (pc + 1) / 4) (pr_insns pr) /\ cell_at code (cell_at code (pc + 1) / 4) = OP_CASETBL).
  { destruct W as [c I X|c I X T|c I J T N|c I X T C B|c I NC W|c I NC W];
      try (rewrite E in X; discriminate); try (rewrite E in J; discriminate); try (rewrite E in NC; discriminate).
    split; assumption. }
  destruct Q as (Q1 & Q2). destruct P as (_ & P & _).
  destruct (P _ (walk_in pr K pc W)) as ((_ & _ & S & _) & _).
  destruct (P _ Q1) as ((I & _ & _ & S2) & _). destruct (S2 Q2) as (_ & S3 & _).
  split; [apply S; exact E|]. split; [exact I|split; [exact Q2|exact S3]].
Qed.

End Flow.

(* ---------- C09: the interpreter ---------- *)

Lemma find_case_in code v : forall k pos o, find_case code pos k v = Some o ->
  exists i, 0 <= i < Z.of_nat k /\ o = cell_at code (pos + 1 + 2 * i).
Proof.
  induction k as [|k IH]; intros pos o H; cbn [find_case] in H; [discriminate|].
  destruct (cell_at code pos =? v).
  - exists 0. split; [lia|]. replace (pos + 1 + 2 * 0) with (pos + 1) by lia. congruence.
  - apply IH in H. destruct H as (i & L & ->). exists (i + 1). split; [lia|]. f_equal. lia.
Qed.

Section Run.
Variable strict : bool.
Variable fe : fenv.
Variable p : prog.
Variable t : config -> bool.
Hypothesis CO : code_ok (p_code p).
Hypothesis EA : enters_accepted p.

Notation code := (p_code p).

Lemma do_jump_next c chk o next b c' : do_jump p t c chk o next = Next b c' ->
  c_callers c' = c_callers c /\ a_pc (c_cur c') = o / 4.
Proof.
  unfold do_jump. intro H. cbv zeta in H.
  destruct (chk && (o <? next * 4) && t c); [discriminate|].
  destruct ((o <? 0) || negb (o mod 4 =? 0) || (ncells p * 4 <=? o)); [discriminate|].
  assert (c' = mkConfig (c_rt c) (mkAct (a_meth (c_cur c)) (o / 4) (a_pri (c_cur c)) (a_alt (c_cur c))) (c_callers c))
    as -> by congruence. split; reflexivity.
Qed.

Lemma step_placed c ms b c' : placed p c ms -> step strict fe p t c = Next b c' ->
  exists ms', placed p c' ms' /\ method_change p c ms ms'.
Proof.
  intros PL H. unfold placed in PL. inversion PL as [|x m l ms0 IN REST]; subst.
  destruct IN as (M0 & AC & RE).
  unfold step in H. cbv zeta in H. set (pc := a_pc (c_cur c)) in *.
  destruct (flow_ok code m CO pc AC RE) as (IO & DN & FT & JT).
  destruct IO as (SW & (B1 & B2 & B3 & B4 & B5 & B6)).
  assert (E0 : ncells p = Z.of_nat (length code)) by reflexivity.
  destruct ((pc <? 0) || (ncells p <? pc)) eqn:E1; [discriminate|].
  destruct (pc =? ncells p) eqn:E2; [lia|].
  destruct ((cell_at code pc =? OP_PROC) || (cell_at code pc =? OP_ENDPROC)) eqn:E3; [lia|].
  unfold method_change. fold pc.
  destruct (decode code pc) as [i|] eqn:D; [|contradiction].
  destruct (ncells p <? pc + insn_size code pc) eqn:E4; [discriminate|].
  assert (KEEP : forall c1, c_callers c1 = c_callers c -> reaches code m (a_pc (c_cur c1)) -> placed p c1 (m :: ms0)).
  { intros c1 X Y. unfold placed. rewrite X. constructor; [|exact REST].
    split; [exact M0|split; [exact AC|exact Y]]. }
  assert (GEN : falls_through code pc -> forall r pri alt c1,
    c1 = mkConfig r (mkAct (a_meth (c_cur c)) (pc + insn_size code pc) pri alt) (c_callers c) ->
    placed p c1 (m :: ms0)).
  { intros F r pri alt c1 ->. apply KEEP; [reflexivity|]. cbn [c_cur a_pc]. apply reach_fall; assumption. }
  assert (DJ : forall chk o, jumps_to code pc o -> do_jump p t c chk o (pc + insn_size code pc) = Next b c' ->
    placed p c' (m :: ms0)).
  { intros chk o J Q. apply do_jump_next in Q. destruct Q as (Q1 & Q2). apply KEEP; [exact Q1|].
    rewrite Q2. eapply reach_jump; eassumption. }
  destruct i;
    try (destruct (negb (slots_ok (a_meth (c_cur c)) _)); [discriminate|];
         match type of H with match ?e with _ => _ end = _ => destruct e as [? s|? ?|?] eqn:?; try discriminate end;
         match type of H with Next _ ?x = _ => assert (c' = x) as -> by congruence end;
         exists (m :: ms0); split;
         [eapply GEN; [unfold falls_through; rewrite D; exact I|reflexivity]|reflexivity]).
  all: try (destruct (decode_proc code pc (or_introl D)); lia).
  all: try (destruct (decode_proc code pc (or_intror D)); lia).
  - (* RETN *)
    destruct (popAmxFrame (c_rt c)) as [? r|? ?|?]; try discriminate.
    unfold return_to in H. inversion REST as [Q1 Q2|a1 m1 l1 ms1 IN1 REST1 Q1 Q2]; subst.
    + rewrite <- Q1 in H. discriminate.
    + rewrite <- Q1 in H. exists (m1 :: ms1). split; [|exists m; reflexivity].
      match type of H with Next _ ?x = _ => assert (c' = x) as -> by congruence end.
      unfold placed. cbn [c_cur c_callers]. constructor; [|exact REST1].
      destruct IN1 as (N0 & N1 & N2). split; [exact N0|split; [exact N1|exact N2]].
  - (* CALL *)
    destruct (p_validate p o) as [mi|e] eqn:V; [|discriminate].
    destruct (enter mi (c_rt c)) as [? r|? ?|?]; try discriminate.
    match type of H with Next _ ?x = _ => assert (c' = x) as -> by congruence end.
    destruct (EA o mi V) as (V1 & V2 & V3).
    exists (o / 4 :: m :: ms0). split; [|reflexivity].
    unfold placed. cbn [c_cur c_callers].
    constructor; [split; [lia|split; [exact V3|apply reach_first]]|].
    constructor; [|exact REST]. split; [exact M0|split; [exact AC|]]. cbn [a_pc].
    apply reach_fall; [exact RE|]. unfold falls_through. rewrite D. exact I.
  - (* JUMP *)
    exists (m :: ms0). split; [|reflexivity]. eapply DJ; [|exact H].
    unfold jumps_to. rewrite D. reflexivity.
  - (* JCMP *)
    exists (m :: ms0). split; [|reflexivity].
    destruct (eval_cmp _ _ _).
    + eapply DJ; [|exact H]. unfold jumps_to. rewrite D. reflexivity.
    + match type of H with Next _ ?x = _ => assert (c' = x) as -> by congruence end.
      eapply GEN; [unfold falls_through; rewrite D; exact I|reflexivity].
  - (* HALT *)
    destruct (negb _); [discriminate|]. cbn [exec] in H. discriminate.
  - (* SWITCH *)
    exists (m :: ms0). split; [|reflexivity].
    match type of H with (if ?e then _ else _) = _ => destruct e eqn:ET; [discriminate|] end.
    match type of H with (if ?e then _ else _) = _ => destruct e eqn:EN; [discriminate|] end.
    eapply DJ; [|exact H]. unfold jumps_to. rewrite D.
    destruct (find_case _ _ _ _) as [o|] eqn:FC; [right|left; reflexivity].
    apply find_case_in in FC. destruct FC as (k & L & ->). exists k. split; [lia|]. f_equal. lia.
Qed.

Lemma runs_placed c c' : runs strict fe p t c c' -> forall ms, placed p c ms -> exists ms', placed p c' ms'.
Proof.
  induction 1 as [c|c b c1 c2 S R IH]; intros ms PL; [exists ms; exact PL|].
  destruct (step_placed c ms b c1 PL S) as (ms1 & P1 & _). exact (IH ms1 P1).
Qed.

Lemma placed_insn c ms : placed p c ms ->
  Forall2 (fun a m => insn_of code m (a_pc a)) (c_cur c :: c_callers c) ms.
Proof.
  unfold placed. intro H. induction H as [|a m l ms (M0 & AC & RE) H IH]; constructor; [|exact IH].
  exact (proj1 (flow_ok code m CO _ AC RE)).
Qed.

(* No jump of an accepted method faults. *)
Lemma jump_no_fault c ms : placed p c ms ->
  (exists o, jumps_to code (a_pc (c_cur c)) o) ->
  Forall (counts_ok code) ms ->
  (exists b c', step strict fe p t c = Next b c') \/ step strict fe p t c = Stop TIMEOUT (c_rt c).
Proof.
  intros PL JX CK. unfold placed in PL. inversion PL as [|x m l ms0 IN REST]; subst.
  destruct IN as (M0 & AC & RE).
  inversion CK as [|? ? CM _]; subst.
  unfold step. cbv zeta. set (pc := a_pc (c_cur c)) in *.
  destruct (flow_ok code m CO pc AC RE) as (IO & DN & FT & JT).
  destruct IO as (SW & (B1 & B2 & B3 & B4 & B5 & B6)).
  assert (E0 : ncells p = Z.of_nat (length code)) by reflexivity.
  destruct ((pc <? 0) || (ncells p <? pc)) eqn:E1; [lia|].
  destruct (pc =? ncells p) eqn:E2; [lia|].
  destruct ((cell_at code pc =? OP_PROC) || (cell_at code pc =? OP_ENDPROC)) eqn:E3; [lia|].
  destruct (ncells p <? pc + insn_size code pc) eqn:E4; [lia|].
  assert (DJ : forall chk o, jumps_to code pc o ->
    (exists b c', do_jump p t c chk o (pc + insn_size code pc) = Next b c') \/
    do_jump p t c chk o (pc + insn_size code pc) = Stop TIMEOUT (c_rt c)).
  { intros chk o J. unfold do_jump. cbv zeta. destruct (chk && _ && _); [right; reflexivity|left].
    destruct (JT o J) as (J1 & J2 & (_ & J3 & _)).
    destruct ((o <? 0) || negb (o mod 4 =? 0) || (ncells p * 4 <=? o)) eqn:E; [lia|]. eexists; eexists; reflexivity. }
  destruct JX as (o & JX). assert (JX' := JX). unfold jumps_to in JX.
  destruct (decode code pc) as [i|] eqn:D; [|contradiction].
  destruct i; try contradiction.
  - subst o. apply DJ. unfold jumps_to. rewrite D. reflexivity.
  - subst o. destruct (eval_cmp _ _ _); [apply DJ; unfold jumps_to; rewrite D; reflexivity|].
    left. eexists; eexists; reflexivity.
  - destruct (flow_switch code m CO pc tbl AC RE D) as (T0 & (T1 & T1') & T2 & T3).
    pose proof (CM _ T1 T2) as NC.
    match goal with |- context [if ?e then Undef UBMem else _] => destruct e eqn:ET; [lia|] end.
    match goal with |- context [if ?e then Undef UBMem else _] => destruct e eqn:EN; [lia|] end.
    apply DJ. unfold jumps_to. rewrite D.
    destruct (find_case _ _ _ _) as [o1|] eqn:FC; [right|left; reflexivity].
    apply find_case_in in FC. destruct FC as (k & L & ->). exists k. split; [lia|]. f_equal. lia.
Qed.

End Run.

(* ---------- C11: termination ---------- *)

(* Neither out of fuel nor an access outside the code. *)
Definition sane {A} (r : cres A) : Prop := match r with CLoop | CUndef UBMem => False | _ => True end.

Section Term.
Variable strict : bool.
Variable code : list Z.
Variable m : Z.
Hypothesis CO : code_ok code.
Hypothesis M0 : 0 <= m.
Hypothesis CK : counts_ok code m.

Notation n := (Z.of_nat (length code)).

Lemma jump_target_total op t ts : sane (jump_target code m op t ts).
Proof.
  unfold jump_target. destruct (t <? 0); [exact I|]. destruct (negb _); [exact I|].
  destruct (code_cells code * 4 <=? t); [exact I|]. destruct (t / 4 <=? m); exact I.
Qed.

Lemma cbind_total {A B} (x : cres A) (k : A -> cres B) :
  sane x -> (forall a, x = CGood a -> sane (k a)) -> sane (cbind x k).
Proof. intros X K. destruct x; cbn; try exact I; [apply K; reflexivity|exact X|exact X]. Qed.

Lemma case_targets_total k : forall pos ts, sane (case_targets code m k pos ts).
Proof.
  induction k as [|k IH]; intros pos ts; cbn [case_targets]; [exact I|].
  apply cbind_total; [apply jump_target_total|intros a _; apply IH].
Qed.

Lemma prescan_step f cip insns ts : swept code m cip -> 0 <= cip <= n ->
  (exists r, prescan_loop strict code m (S f) cip insns ts = r /\ sane r /\
     forall pr, r = CGood pr -> pr = mkPre insns ts cip) \/
  exists cip' ts', swept code m cip' /\ cip < cip' <= n /\
     prescan_loop strict code m (S f) cip insns ts = prescan_loop strict code m f cip' (cip :: insns) ts'.
Proof.
  intros SW LE. cbn [prescan_loop]. unfold code_cells. cbv zeta.
  assert (BAD : forall r, sane r -> (forall pr, r = CGood pr -> pr = mkPre insns ts cip) ->
    forall Q, (exists r0, r = r0 /\ sane r0 /\ forall pr, r0 = CGood pr -> pr = mkPre insns ts cip) \/ Q).
  { intros r A B Q. left. exists r. auto. }
  destruct (n <? cip + 1) eqn:EM; [apply BAD; [exact I|congruence]|].
  destruct (cip <? 0) eqn:P0; [lia|].
  destruct ((cell_at code cip =? OP_PROC) || (cell_at code cip =? OP_ENDPROC)) eqn:EP; [apply BAD; [exact I|congruence]|].
  destruct ((cell_at code cip <=? 0) || (OPCODES_LAST <=? cell_at code cip)) eqn:EO; [apply BAD; [exact I|discriminate]|].
  destruct CO as (CI & CL).
  match goal with |- context [cbind ?x _] => set (X := x) end.
  assert (X1 : sane X).
  { unfold X. destruct (cell_at code cip =? OP_CASETBL).
    - destruct (n <? cip + 2); [exact I|].
      destruct ((two31 - 2) / 2 <? cell_at code (cip + 1)); exact I.
    - destruct (opcode_size (cell_at code cip) =? 0); [|exact I]. destruct strict; exact I. }
  destruct X as [(c1, params)|e|u|] eqn:HX; [|apply BAD; [exact I|discriminate]|apply BAD; [exact X1|discriminate]|contradiction].
  cbn [cbind].
  destruct (strict && (params <? 0)) eqn:ES; [apply BAD; [exact I|discriminate]|].
  destruct (n <? c1 + params) eqn:EN; [apply BAD; [exact I|discriminate]|].
  assert (SZ : c1 + params = cip + insn_size code cip /\ opcode_size (cell_at code cip) <> 0 /\ cip < c1 + params /\
    (cell_at code cip = OP_CASETBL -> 0 <= c1 < c1 + params)).
  { unfold X in HX. unfold insn_size. destruct (cell_at code cip =? OP_CASETBL) eqn:EC.
    - destruct (n <? cip + 2) eqn:E2; [discriminate|].
      destruct ((two31 - 2) / 2 <? cell_at code (cip + 1)) eqn:E3; [discriminate|].
      assert (c1 = cip + 2 /\ params = wrap32 (cell_at code (cip + 1) * 2 + 1)) as (-> & ->) by (split; congruence).
      pose proof (cell_at_i32 code (cip + 1) CI) as K.
      rewrite (table_size (cell_at code (cip + 1)) n K) by lia.
      assert (EC' : cell_at code cip = OP_CASETBL) by lia. pose proof (CK cip SW EC') as NN.
      assert (W : wrap32 (cell_at code (cip + 1) * 2 + 1) = cell_at code (cip + 1) * 2 + 1).
      { apply wrap32_id. unfold is_i32, two31 in *. lia. }
      rewrite EC', W. split; [lia|split; [unfold OP_CASETBL; cbn; lia|lia]].
    - destruct (opcode_size (cell_at code cip) =? 0) eqn:E2; [destruct strict; discriminate|].
      assert (c1 = cip + 1 /\ params = opcode_size (cell_at code cip) - 1) as (-> & ->) by (split; congruence).
      destruct (opcode_size_range (cell_at code cip)) as [N|N]; [apply opcode_size_neg in N; lia|]. lia. }
  destruct SZ as (SZ & SZ0 & SZ1 & SZ2).
  assert (IA : instr_at code cip) by (unfold instr_at; repeat split; lia).
  match goal with |- context [cbind ?x _] => set (Y := x) end.
  assert (Y1 : sane Y).
  { unfold Y. destruct (is_control (cell_at code cip) && negb (cell_at code cip =? OP_RETN)); [apply jump_target_total|].
    destruct (cell_at code cip =? OP_CASETBL) eqn:EC; [|exact I]. specialize (SZ2 ltac:(lia)).
    unfold casetable, code_cells. destruct ((c1 <? 0) || (n <=? c1)) eqn:E1; [lia|].
    apply cbind_total; [apply jump_target_total|intros a _; apply case_targets_total]. }
  destruct Y as [ts'|e|u|]; [|apply BAD; [exact I|discriminate]|apply BAD; [exact Y1|discriminate]|contradiction].
  right. exists (c1 + params), ts'.
  split; [rewrite SZ; apply swept_next; assumption|]. split; [lia|reflexivity].
Qed.

Lemma prescan_loop_total fuel : forall cip insns ts, swept code m cip -> 0 <= cip <= n ->
  n - cip < Z.of_nat fuel -> sane (prescan_loop strict code m fuel cip insns ts).
Proof.
  induction fuel as [|f IH]; intros cip insns ts SW LE L; [lia|].
  destruct (prescan_step f cip insns ts SW LE) as [(r & -> & N & _)|(cip' & ts' & SW' & B & ->)]; [exact N|].
  apply IH; [exact SW'|lia|lia].
Qed.

Lemma prescan_loop_count fuel : forall cip insns ts pr, swept code m cip -> 0 <= cip <= n ->
  Z.of_nat (length insns) <= cip -> prescan_loop strict code m fuel cip insns ts = CGood pr ->
  Z.of_nat (length (pr_insns pr)) <= n /\ pr_stop pr <= n.
Proof.
  induction fuel as [|f IH]; intros cip insns ts pr SW LE L H; [discriminate|].
  destruct (prescan_step f cip insns ts SW LE) as [(r & E & _ & G)|(cip' & ts' & SW' & B & E)]; rewrite E in H.
  - rewrite (G pr H). cbn. lia.
  - eapply IH; [exact SW'| | |exact H]; [lia|]. cbn [length]. lia.
Qed.

Lemma prescan_total fuel : (length code <= fuel)%nat -> sane (prescan strict code m fuel).
Proof.
  intro L. unfold prescan, code_cells. destruct (n <? m + 1) eqn:E; [exact I|].
  destruct (negb _); [exact I|]. apply prescan_loop_total; [apply swept_first|lia|lia].
Qed.

Section ScanTerm.
Variable pr : pre.
Hypothesis PI : pre_inv code m (pr_stop pr) (pr_insns pr) (pr_targets pr).
Notation insns := (pr_insns pr).

Lemma scanned_pos ts c : scanned code m ts c -> 0 < insn_size code c /\ 0 <= c /\ c + insn_size code c <= n.
Proof.
  intros ((SW & (B1 & B2 & B3 & B4 & B5 & B6)) & _ & _ & T). split; [|lia]. unfold insn_size in *.
  destruct (cell_at code c =? OP_CASETBL) eqn:E.
  - assert (E' : cell_at code c = OP_CASETBL) by lia.
    pose proof (CK c SW E') as N. destruct (T E') as (_ & T2 & _). destruct CO as (CI & CL).
    rewrite (wrap32_id (cell_at code (c + 1) * 2 + 3)); [lia|]. unfold is_i32, two31 in *. lia.
  - destruct (opcode_size_range (cell_at code c)) as [N|N]; [|lia].
    apply opcode_size_neg in N. lia.
Qed.

(* Known blocks are distinct instructions, and blocks enter the queue as they become known. *)
Definition fine (g : graph) : Prop := NoDup (g_known g) /\ incl (g_known g) insns.
Definition gap (g : graph) : Z := Z.of_nat (length (g_known g)) - Z.of_nat (length (g_queue g)).

Lemma fine_add b g : In b insns -> fine g -> fine (get_or_add b g) /\ gap (get_or_add b g) = gap g.
Proof.
  intros I (A & B). unfold get_or_add, fine, gap. destruct (mem_z b (g_known g)) eqn:E; [split; [split; assumption|reflexivity]|].
  cbn [g_known g_queue length]. split; [split|lia].
  - constructor; [|exact A]. intro X. apply mem_z_In in X. congruence.
  - intros x [<-|X]; [exact I|apply B; exact X].
Qed.

Lemma add_cases_fine cur offs : forall g g', add_cases strict pr cur offs g = FEnded g' -> fine g ->
  fine g' /\ gap g' = gap g.
Proof.
  induction offs as [|o rest IH]; intros g g' H F; cbn [add_cases] in H.
  - assert (g' = g) as -> by congruence. split; [exact F|reflexivity].
  - destruct (negb (is_insn pr (o / 4))) eqn:E1; [discriminate|].
    destruct (strict && negb (is_target pr (o / 4))); [discriminate|].
    assert (I : In (o / 4) insns) by (apply is_insn_In; destruct (is_insn pr (o / 4)); [reflexivity|discriminate]).
    destruct (fine_add (o / 4) g I F) as (F1 & G1).
    apply IH in H; [|exact F1]. rewrite <- G1. exact H.
Qed.

Lemma scan_flow_fine cur cip g g' :
  scan_flow strict code pr cur cip g = FEnded g' -> In cip insns \/ cip = pr_stop pr -> fine g ->
  fine g' /\ gap g' = gap g.
Proof.
  unfold scan_flow, stop. intros H IN F.
  destruct (pr_stop pr <? cip + 1) eqn:EM; [discriminate|].
  assert (I : In cip insns) by (destruct IN; [assumption|lia]). clear IN.
  destruct (strict && negb (is_insn pr cip)); [discriminate|].
  destruct (is_target pr cip && negb (cur =? cip)) eqn:ET.
  { assert (g' = set_end cur cip (add_edge cur cip (get_or_add cip g))) as -> by congruence.
    exact (fine_add cip g I F). }
  cbv zeta in H.
  destruct (negb (is_control (cell_at code cip))) eqn:EC; [discriminate|].
  destruct (cell_at code cip =? OP_RETN) eqn:ER.
  { assert (g' = set_end cur (cip + 1) g) as -> by congruence. split; [exact F|reflexivity]. }
  destruct (negb (is_insn pr (cell_at code (cip + 1) / 4))) eqn:EI; [discriminate|].
  assert (J : In (cell_at code (cip + 1) / 4) insns)
    by (apply is_insn_In; destruct (is_insn pr (cell_at code (cip + 1) / 4)); [reflexivity|discriminate]).
  destruct (cell_at code cip =? OP_SWITCH) eqn:ESW.
  { unfold scan_switch in H.
    destruct (negb (is_insn pr (cell_at code (cip + 1) / 4))); [discriminate|].
    destruct (negb (cell_at code (cell_at code (cip + 1) / 4) =? OP_CASETBL)) eqn:E1; [discriminate|].
    cbv zeta in H.
    destruct (code_cells code <? _) eqn:E2; [discriminate|].
    destruct (add_cases strict pr cur (table_offsets code (cell_at code (cip + 1) / 4)) g) as [|g1| |] eqn:EA;
      try discriminate.
    apply add_cases_fine in EA; [|exact F].
    assert (g' = set_end cur (cip + opcode_size OP_SWITCH) g1) as -> by congruence. exact EA. }
  assert (IJ : is_jump (cell_at code cip) = true).
  { unfold is_control in EC. destruct (is_jump (cell_at code cip)); [reflexivity|lia]. }
  destruct (strict && negb (is_target pr (cell_at code (cip + 1) / 4))); [discriminate|].
  destruct (fine_add _ g J F) as (F1 & G1).
  destruct (cell_at code cip =? OP_JUMP) eqn:EJ.
  { assert (g' = set_end cur (cip + 2) (add_edge cur (cell_at code (cip + 1) / 4)
                   (get_or_add (cell_at code (cip + 1) / 4) g))) as -> by congruence.
    split; [exact F1|exact G1]. }
  destruct (pr_stop pr <? cip + 2 + 1) eqn:EN; [discriminate|].
  assert (SZ : insn_size code cip = 2) by (apply size_jump; exact IJ).
  assert (I2 : In (cip + 2) insns).
  { destruct PI as (_ & P & _). destruct (P cip I) as (_ & [Q|Q]); rewrite SZ in Q; [exact Q|lia]. }
  destruct (fine_add (cip + 2) (get_or_add (cell_at code (cip + 1) / 4) g) I2 F1) as (F2 & G2).
  match type of H with FEnded ?x = _ => assert (g' = x) as -> by congruence end.
  split; [exact F2|]. unfold gap in *. cbn [set_end add_edge g_known g_queue] in *. lia.
Qed.

Lemma scan_flow_safe cur cip g u : scan_flow strict code pr cur cip g = FUndef u ->
  In cip insns \/ cip = pr_stop pr -> u <> UBMem.
Proof.
  unfold scan_flow, stop. intros H IN.
  destruct (pr_stop pr <? cip + 1) eqn:EM; [discriminate|].
  destruct (strict && negb (is_insn pr cip)); [congruence|].
  destruct (is_target pr cip && negb (cur =? cip)) eqn:ET; [discriminate|].
  cbv zeta in H.
  destruct (negb (is_control (cell_at code cip))) eqn:EC; [discriminate|].
  destruct (cell_at code cip =? OP_RETN) eqn:ER; [discriminate|].
  destruct (negb (is_insn pr (cell_at code (cip + 1) / 4))) eqn:EI; [discriminate|].
  assert (J : In (cell_at code (cip + 1) / 4) insns)
    by (apply is_insn_In; destruct (is_insn pr (cell_at code (cip + 1) / 4)); [reflexivity|discriminate]).
  destruct (cell_at code cip =? OP_SWITCH) eqn:ESW.
  { unfold scan_switch in H.
    destruct (negb (is_insn pr (cell_at code (cip + 1) / 4))); [discriminate|].
    destruct (negb (cell_at code (cell_at code (cip + 1) / 4) =? OP_CASETBL)) eqn:E1; [discriminate|].
    cbv zeta in H. unfold code_cells in H.
    destruct PI as (_ & P & _). destruct (P _ J) as ((_ & _ & _ & S) & _).
    destruct (S ltac:(lia)) as (_ & S2 & _).
    match type of H with (if ?e then _ else _) = _ => destruct e eqn:E2; [lia|] end.
    assert (A : forall offs g1 v, add_cases strict pr cur offs g1 = FUndef v -> v <> UBMem).
    { induction offs as [|o r IH]; intros g1 v Q; cbn [add_cases] in Q; [discriminate|].
      destruct (negb (is_insn pr (o / 4))); [discriminate|].
      destruct (strict && negb (is_target pr (o / 4))); [congruence|]. exact (IH _ _ Q). }
    destruct (add_cases strict pr cur (table_offsets code (cell_at code (cip + 1) / 4)) g) eqn:EA; try discriminate.
    assert (u0 = u) as <- by congruence. exact (A _ _ _ EA). }
  destruct (strict && negb (is_target pr (cell_at code (cip + 1) / 4))); [congruence|].
  destruct (cell_at code cip =? OP_JUMP) eqn:EJ; [discriminate|].
  destruct (pr_stop pr <? cip + 2 + 1); discriminate.
Qed.

Lemma scan_loop_total fuel : forall cur cip g,
  In cip insns \/ cip = pr_stop pr -> 0 <= cip <= n ->
  (forall x, In x (g_queue g) -> In x insns) -> fine g ->
  (Z.of_nat (length insns) - gap g) * (n + 2) + (n + 1 - cip) < Z.of_nat fuel ->
  sane (scan_loop strict code pr fuel cur cip g).
Proof.
  induction fuel as [|f IH]; intros cur cip g IN CB Q F L.
  { destruct F as (F1 & F2). pose proof (NoDup_incl_length F1 F2). unfold gap in L. nia. }
  cbn [scan_loop].
  destruct (scan_flow strict code pr cur cip g) as [|g1|e|u] eqn:EF; [| |exact I|].
  - apply scan_flow_cont in EF; [|exact IN]. destruct EF as (I & NC).
    destruct PI as (_ & P & _). destruct (P cip I) as (S & NX). destruct (scanned_pos _ _ S) as (S1 & S2 & S3).
    apply IH; [exact NX|lia|exact Q|exact F|lia].
  - destruct (scan_flow_spec strict code m pr PI cur cip g g1 EF IN) as ((X1 & X2 & X3 & X4) & W).
    destruct (scan_flow_fine cur cip g g1 EF IN F) as (F1 & G1).
    assert (Q1 : forall x, In x (g_queue g1) -> In x insns).
    { intros x X. destruct (X4 x X) as [Y|Y]; [exact (Q x Y)|exact Y]. }
    destruct (g_queue g1) as [|b q] eqn:EQ; [exact I|].
    assert (IB : In b insns) by (apply Q1; left; reflexivity).
    destruct PI as (_ & P & _). destruct (P b IB) as (S & _). destruct (scanned_pos _ _ S) as (S1 & S2 & S3).
    apply IH; [left; exact IB|lia|intros x X; apply Q1; right; exact X|exact F1|].
    unfold gap in *. cbn [g_known g_queue] in *. rewrite EQ in G1. cbn [length] in G1. nia.
  - pose proof (scan_flow_safe cur cip g u EF IN) as N. destruct u; [contradiction|exact I|exact I].
Qed.

End ScanTerm.

Lemma scan_method_total fuel : ((length code + 2) * (length code + 2) <= fuel)%nat ->
  sane (scan_method strict fuel code m).
Proof.
  intro L. unfold scan_method. apply cbind_total; [apply prescan_total; nia|].
  intros pr H. apply cbind_total; [|intros; exact I].
  pose proof (prescan_inv strict code m CO fuel pr H) as PI.
  unfold scan.
  unfold prescan, code_cells in H. destruct (n <? m + 1) eqn:E; [discriminate|].
  destruct (negb _); [discriminate|].
  apply prescan_loop_count in H; [|apply swept_first|lia|cbn; lia]. destruct H as (H1 & H2).
  apply scan_loop_total.
  - exact PI.
  - destruct PI as (_ & _ & [P|P]); [left; exact P|right; symmetry; exact P].
  - lia.
  - intros x [].
  - split; [constructor|intros x []].
  - unfold gap. cbn [g_known g_queue length]. nia.
Qed.

End Term.

(* ---------- C25: loops poll ---------- *)

(* The program counter of the activation at depth [d]. *)
Definition base (d : nat) (c : config) : Z :=
  a_pc (nth (depth c - d) (c_cur c :: c_callers c) (c_cur c)).

Section Poll.
Variable strict : bool.
Variable fe : fenv.
Variable p : prog.
Variable t : config -> bool.
Hypothesis CO : code_ok (p_code p).
Hypothesis EA : enters_accepted p.
Hypothesis CK : forall m, accepted (p_code p) m -> counts_ok (p_code p) m.
Notation code := (p_code p).

Lemma reach_size m pc : 0 <= m -> accepted code m -> reaches code m pc -> 0 < insn_size code pc.
Proof.
  intros M0 A R. destruct (accepted_walk code m CO A) as (pr & K & P & KW & W0).
  pose proof (reaches_walk code m pr K P KW W0 pc R) as W. apply walk_in in W.
  destruct P as (P0 & P & P1). destruct (P pc W) as (S & _).
  exact (proj1 (scanned_pos code m CO (CK m A) _ _ S)).
Qed.

Lemma do_jump_forward c o next c' : do_jump p t c true o next = Next false c' -> next <= o / 4.
Proof.
  unfold do_jump. cbv zeta. intro H.
  destruct (true && (o <? next * 4) && t c); [discriminate|].
  destruct ((o <? 0) || negb (o mod 4 =? 0) || (ncells p * 4 <=? o)); [discriminate|].
  assert (E : true && (o <? next * 4) = false) by congruence. cbn [andb] in E. lia.
Qed.

Lemma base_step d c ms c' : placed p c ms -> step strict fe p t c = Next false c' ->
  (d <= depth c)%nat -> (d <= depth c')%nat ->
  (depth c = d -> ~ is_switch (decode code (a_pc (c_cur c)))) ->
  base d c <= base d c' /\ (depth c = d -> base d c < base d c').
Proof.
  intros PL H D1 D2 NS. unfold placed in PL. inversion PL as [|x m l ms0 IN REST]; subst.
  destruct IN as (M0 & AC & RE).
  pose proof (reach_size m _ M0 AC RE) as SP.
  unfold step in H. cbv zeta in H. set (pc := a_pc (c_cur c)) in *.
  destruct (flow_ok code m CO pc AC RE) as (IO & DN & FT & JT).
  destruct IO as (SW & (B1 & B2 & B3 & B4 & B5 & B6)).
  assert (E0 : ncells p = Z.of_nat (length code)) by reflexivity.
  destruct ((pc <? 0) || (ncells p <? pc)) eqn:E1; [discriminate|].
  destruct (pc =? ncells p) eqn:E2; [lia|].
  destruct ((cell_at code pc =? OP_PROC) || (cell_at code pc =? OP_ENDPROC)) eqn:E3; [lia|].
  (* a step that keeps the callers *)
  assert (KEEP : c_callers c' = c_callers c -> (depth c = d -> pc < a_pc (c_cur c')) ->
    base d c <= base d c' /\ (depth c = d -> base d c < base d c')).
  { intros X Y. unfold base, depth in *. rewrite X in *.
    destruct (length (c_callers c) - d)%nat as [|k] eqn:EK.
    - cbn [nth]. fold pc. assert (length (c_callers c) = d) by lia. specialize (Y H0). lia.
    - cbn [nth]. assert (k < length (c_callers c))%nat by lia.
      rewrite (nth_indep _ (c_cur c') (c_cur c)) by lia. split; [lia|]. lia. }
  destruct (decode code pc) as [i|] eqn:D; [|contradiction].
  destruct (ncells p <? pc + insn_size code pc) eqn:E4; [discriminate|].
  assert (GEN : forall r pri alt,
    c' = mkConfig r (mkAct (a_meth (c_cur c)) (pc + insn_size code pc) pri alt) (c_callers c) ->
    base d c <= base d c' /\ (depth c = d -> base d c < base d c')).
  { intros r pri alt E. apply KEEP; rewrite E; [reflexivity|]. cbn [c_cur a_pc]. lia. }
  assert (DJ : forall o, do_jump p t c true o (pc + insn_size code pc) = Next false c' ->
    base d c <= base d c' /\ (depth c = d -> base d c < base d c')).
  { intros o Q. pose proof (do_jump_forward _ _ _ _ Q) as F. apply do_jump_next in Q. destruct Q as (Q1 & Q2).
    apply KEEP; [exact Q1|]. rewrite Q2. lia. }
  destruct i;
    try (destruct (negb (slots_ok (a_meth (c_cur c)) _)); [discriminate|];
         match type of H with match ?e with _ => _ end = _ => destruct e as [? s|? ?|?] eqn:?; try discriminate end;
         eapply GEN; match type of H with Next _ ?x = _ => assert (EQ : c' = x) by congruence; exact EQ end).
  all: try (destruct (decode_proc code pc (or_introl D)); lia).
  all: try (destruct (decode_proc code pc (or_intror D)); lia).
  - (* RETN *)
    destruct (popAmxFrame (c_rt c)) as [? r|? ?|?]; try discriminate.
    unfold return_to in H. destruct (c_callers c) as [|a1 l1] eqn:EC; [discriminate|].
    match type of H with Next _ ?x = _ => assert (c' = x) as -> by congruence end.
    unfold base, depth in *. rewrite EC in *. cbn [c_callers c_cur length] in *.
    destruct (S (length l1) - d)%nat as [|k] eqn:EK; [lia|].
    replace (length l1 - d)%nat with k by lia. cbn [nth].
    destruct k as [|k]; cbn [nth a_pc]; [split; lia|].
    split; [|lia]. rewrite (nth_indep l1 (mkAct (a_meth a1) (a_pc a1) (a_pri (c_cur c)) (a_alt a1)) (c_cur c)) by lia. lia.
  - (* CALL *)
    destruct (p_validate p o) as [mi|e] eqn:V; [|discriminate].
    destruct (enter mi (c_rt c)) as [? r|? ?|?]; try discriminate.
    match type of H with Next _ ?x = _ => assert (c' = x) as -> by congruence end.
    unfold base, depth in *. cbn [c_callers c_cur length] in *.
    replace (S (length (c_callers c)) - d)%nat with (S (length (c_callers c) - d)) by lia. cbn [nth].
    destruct (length (c_callers c) - d)%nat as [|k] eqn:EK; cbn [nth a_pc]; [fold pc; lia|].
    split; [|lia]. rewrite (nth_indep (c_callers c) (mkAct mi (o / 4 + 1) 0 0) (c_cur c)) by lia. lia.
  - eapply DJ; exact H.
  - destruct (eval_cmp _ _ _); [eapply DJ; exact H|].
    eapply GEN; match type of H with Next _ ?x = _ => assert (EQ : c' = x) by congruence; exact EQ end.
  - (* SWITCH *)
    assert (ND : depth c <> d) by (intro X; apply (NS X); exact I).
    match type of H with (if ?e then _ else _) = _ => destruct e eqn:ET; [discriminate|] end.
    match type of H with (if ?e then _ else _) = _ => destruct e eqn:EN; [discriminate|] end.
    apply do_jump_next in H. destruct H as (Q1 & Q2). apply KEEP; [exact Q1|]. lia.
Qed.

Lemma unpolled_base d c c' : unpolled strict fe p t d c c' -> forall ms, placed p c ms -> (d <= depth c)%nat ->
  base d c <= base d c'.
Proof.
  induction 1 as [c|c c1 c2 S D1 NS U IH]; intros ms PL D; [lia|].
  destruct (base_step d c ms c1 PL S D D1 NS) as (B & _).
  destruct (step_placed strict fe p t CO EA c ms false c1 PL S) as (ms1 & PL1 & _).
  specialize (IH ms1 PL1 D1). lia.
Qed.

Lemma loops_poll c ms c1 c2 : placed p c ms -> step strict fe p t c = Next false c1 -> (depth c <= depth c1)%nat ->
  ~ is_switch (decode code (a_pc (c_cur c))) -> unpolled strict fe p t (depth c) c1 c2 ->
  depth c2 = depth c -> a_pc (c_cur c) < a_pc (c_cur c2).
Proof.
  intros PL S D NS U E.
  destruct (base_step (depth c) c ms c1 PL S ltac:(lia) D (fun _ => NS)) as (_ & B).
  specialize (B eq_refl).
  destruct (step_placed strict fe p t CO EA c ms false c1 PL S) as (ms1 & PL1 & _).
  pose proof (unpolled_base _ _ _ U ms1 PL1 D) as B2.
  unfold base in B, B2. rewrite E in B2. rewrite Nat.sub_diag in B, B2. cbn [nth] in B, B2. lia.
Qed.

End Poll.

(* ---------- witnesses ---------- *)

(* A loop closed by a SWITCH: PROC; SWITCH 12; CASETBL with no case and default offset 4. *)
Definition switch_loop : list Z := [46; 129; 12; 130; 0; 4].

Lemma switch_loop_accepted : accepted switch_loop 0.
Proof. exists true, 40%nat. eexists. vm_compute. reflexivity. Qed.

Lemma switch_loop_silent strict fe t p c : p_code p = switch_loop -> a_pc (c_cur c) = 1 ->
  forall k, exists c', silent strict fe p t k c c' /\ a_pc (c_cur c') = 1 /\ depth c' = depth c.
Proof.
  intros E P k. revert c P. induction k as [|k IH]; intros c P; [exists c; split; [constructor|split; [exact P|reflexivity]]|].
  assert (ST : exists c1, step strict fe p t c = Next false c1 /\ a_pc (c_cur c1) = 1 /\ depth c1 = depth c).
  { exists (mkConfig (c_rt c) (mkAct (a_meth (c_cur c)) 1 (a_pri (c_cur c)) (a_alt (c_cur c))) (c_callers c)).
    split; [|split; reflexivity]. unfold step, do_jump, ncells. cbv zeta. rewrite E, P. cbn [find_case]. vm_compute. reflexivity. }
  destruct ST as (c1 & S1 & P1 & D1). destruct (IH c1 P1) as (c2 & S2 & P2 & D2).
  exists c2. split; [econstructor; eassumption|]. split; [exact P2|congruence].
Qed.

(* A case table with count -2 sends the prescan back to the NOP before it. *)
Definition negative_count : list Z := [46; 134; 130; -2; 4].

Lemma negative_count_loops fuel : prescan false negative_count 0 fuel = CLoop.
Proof.
  unfold prescan. cbn [code_cells negative_count length Z.of_nat]. 
  assert (A : forall fuel insns ts,
    prescan_loop false negative_count 0 fuel 1 insns ts = CLoop /\ prescan_loop false negative_count 0 fuel 2 insns ts = CLoop).
  { clear fuel. induction fuel as [|f IH]; intros insns ts; [split; reflexivity|].
    split.
    - transitivity (prescan_loop false negative_count 0 f 2 (1 :: insns) ts); [reflexivity|]. apply IH.
    - transitivity (prescan_loop false negative_count 0 f 1 (2 :: insns) (1 :: ts)); [reflexivity|]. apply IH. }
  exact (proj1 (A fuel [] [])).
Qed.

Lemma negative_reads_before : scan_method false 9 [46; 130; -100; 4] 0 = CUndef UBMem.
Proof. reflexivity. Qed.
Lemma negative_reads_after : scan_method false 9 [46; 130; -3] 0 = CUndef UBMem.
Proof. reflexivity. Qed.

Lemma start_placed p mi o args r b c : enters_accepted p -> p_validate p o = inl mi ->
  start mi o args r = Next b c -> placed p c [o / 4].
Proof.
  intros EA V H. destruct (EA o mi V) as (V1 & V2 & V3). unfold start in H.
  match type of H with match ?e with _ => _ end = _ => destruct e as [? r1|? ?|?]; try discriminate end.
  destruct (enter mi r1) as [? r2|? ?|?]; try discriminate.
  match type of H with Next _ ?x = _ => assert (c = x) as -> by congruence end.
  unfold placed. cbn [c_cur c_callers]. constructor; [|constructor].
  split; [lia|split; [exact V3|apply reach_first]].
Qed.

(* A method with a loop, a conditional exit, a switch and a call: accepted, and every kind of flow is
   present. *)
Definition tour : list Z :=
  [46;            (* 0  PROC *)
   54; 48;        (* 1  JNZ -> 12 *)
   129; 20;       (* 3  SWITCH -> 5 *)
   130; 1; 48; 7; 4;  (* 5 CASETBL: default -> 12, case 7 -> 1 *)
   51; 4;         (* 10 JUMP -> 1 *)
   39; 0;         (* 12 PUSH_C 0 *)
   49; 0;         (* 14 CALL 0 *)
   48;            (* 16 RETN *)
   46; 48].       (* 17 another method *)

Lemma tour_accepted : accepted tour 0.
Proof. exists true, 400%nat. eexists. vm_compute. reflexivity. Qed.
Lemma tour_ok : code_ok tour.
Proof.
  split; [|unfold two31; cbn; lia].
  unfold tour, is_i32, two31. repeat (apply Forall_cons; [lia|]). apply Forall_nil.
Qed.
Lemma tour_flow : jumps_to tour 1 48 /\ falls_through tour 1 /\ jumps_to tour 3 4 /\ reaches tour 0 16.
Proof.
  split; [reflexivity|]. split; [exact I|]. split; [right; exists 0; split; [vm_compute; split; [discriminate|reflexivity]|reflexivity]|].
  assert (A : reaches tour 0 1) by exact (reach_first tour 0).
  assert (B : reaches tour 0 12) by exact (reach_jump tour 0 1 48 A eq_refl).
  assert (C : reaches tour 0 14) by exact (reach_fall tour 0 12 B I).
  exact (reach_fall tour 0 14 C I).
Qed.
Lemma tour_counts : counts_ok tour 0.
Proof.
  intros pc S E.
  assert (A : In pc [1; 3; 5; 10; 12; 14; 16; 17]).
  { clear E. induction S as [|q S IH I]; [left; reflexivity|].
    cbn [In] in IH.
    repeat (destruct IH as [<-|IH];
      [first [exact (False_ind _ (proj1 (proj2 I) eq_refl))|vm_compute; tauto]|]). destruct IH. }
  cbn [In] in A.
  repeat (destruct A as [<-|A]; [first [discriminate E|vm_compute; discriminate]|]). destruct A.
Qed.

Lemma run_ok strict fe p t mi o args r b c c' :
  code_ok (p_code p) -> enters_accepted p -> p_validate p o = inl mi ->
  start mi o args r = Next b c -> runs strict fe p t c c' ->
  exists ms, Forall2 (fun a m => insn_of (p_code p) m (a_pc a)) (c_cur c' :: c_callers c') ms.
Proof.
  intros CO EA V S R. pose proof (start_placed p mi o args r b c EA V S) as PL.
  destruct (runs_placed strict fe p t CO EA c c' R _ PL) as (ms & PM).
  exists ms. exact (placed_insn p CO c' ms PM).
Qed.

Lemma scan_finishes strict code m fuel : code_ok code -> 0 <= m -> counts_ok code m ->
  ((length code + 2) * (length code + 2) <= fuel)%nat -> scan_method strict fuel code m <> CLoop.
Proof.
  intros CO M0 CK L E. pose proof (scan_method_total strict code m CO M0 CK fuel L) as S.
  rewrite E in S. exact S.
Qed.

Lemma scan_reads strict code m fuel : code_ok code -> 0 <= m -> counts_ok code m ->
  ((length code + 2) * (length code + 2) <= fuel)%nat -> scan_method strict fuel code m <> CUndef UBMem.
Proof.
  intros CO M0 CK L E. pose proof (scan_method_total strict code m CO M0 CK fuel L) as S.
  rewrite E in S. exact S.
Qed.

Ltac small_code := split; [unfold is_i32, two31; repeat (apply Forall_cons; [lia|]); apply Forall_nil|vm_compute; reflexivity].

Lemma negative_count_exists : exists code, code_ok code /\ forall fuel, scan_method false fuel code 0 = CLoop.
Proof.
  exists negative_count. split; [unfold negative_count; small_code|].
  intro fuel. unfold scan_method. rewrite negative_count_loops. reflexivity.
Qed.

Lemma negative_reads_exists : exists before after fuel,
  code_ok before /\ code_ok after /\
  scan_method false fuel before 0 = CUndef UBMem /\ scan_method false fuel after 0 = CUndef UBMem.
Proof.
  exists [46; 130; -100; 4], [46; 130; -3], 9%nat.
  split; [small_code|]. split; [small_code|]. exact (conj negative_reads_before negative_reads_after).
Qed.

Lemma switch_loop_counts : counts_ok switch_loop 0.
Proof.
  intros pc S E.
  assert (A : In pc [1; 3; 6]).
  { clear E. induction S as [|q S IH I]; [left; reflexivity|].
    cbn [In] in IH. destruct IH as [<-|[<-|[<-|[]]]]; [vm_compute; tauto|vm_compute; tauto|].
    destruct I as (I & _). vm_compute in I. destruct I as (_ & I). discriminate I. }
  cbn [In] in A.
  repeat (destruct A as [<-|A]; [first [discriminate E|vm_compute; discriminate]|]). destruct A.
Qed.

Lemma switch_loop_exists : exists code, code_ok code /\ accepted code 0 /\ counts_ok code 0 /\
  forall strict fe p t c, p_code p = code -> a_pc (c_cur c) = 1 ->
  forall k, exists c', silent strict fe p t k c c' /\ a_pc (c_cur c') = 1 /\ depth c' = depth c.
Proof.
  exists switch_loop. split; [unfold switch_loop; small_code|]. split; [exact switch_loop_accepted|].
  split; [exact switch_loop_counts|]. intros strict fe p t c. exact (switch_loop_silent strict fe t p c).
Qed.
