From Verif Require Import Base Base_Proofs Rtti_Model Rt_Model Array_Model Interp_Model Cfg_Model Cfg_Spec Cfg_Proofs Dom_Model Dom_Spec Dom_Proofs Dom_Build Ver_Model Ver_Spec.
From Coq Require Import ZifyBool.
Ltac Zify.zify_post_hook ::= Z.div_mod_to_equations.

(* --- One instruction --- *)
Lemma check_good b e x y : check b e x = CGood y -> y = x /\ b = true.
Proof. unfold check. destruct b; intro H; [split; congruence|discriminate]. Qed.

Lemma push_good n d mx d' mx' : 0 <= n < two32 -> push_stack n (d, mx) = CGood (d', mx') ->
  vd_stack d' = vd_stack d + n /\ vd_stack d' <= INT_MAX4 /\ mx <= mx' /\ vd_stack d' <= mx'.
Proof.
  intros R H. unfold push_stack in H. rewrite (u32_id n) in H by exact R. cbv zeta in H.
  destruct (two32 <=? vd_stack d + n); [discriminate|].
  destruct (INT_MAX4 <? vd_stack d + n) eqn:E; [discriminate|].
  assert (d' = set_stack (vd_stack d + n) d) as -> by congruence.
  assert (mx' = if mx <? vd_stack d + n then vd_stack d + n else mx) as -> by congruence.
  cbn [vd_stack set_stack]. destruct (mx <? vd_stack d + n) eqn:F; lia.
Qed.

Lemma pop_good n d mx d' mx' : pop_stack n (d, mx) = CGood (d', mx') ->
  mx' = mx /\ u32 n <= vd_stack d /\ vd_stack d' = vd_stack d - u32 n.
Proof.
  intro H. unfold pop_stack in H. destruct (vd_stack d <? u32 n) eqn:E; [discriminate|].
  assert (d' = set_stack (vd_stack d - u32 n) d) as -> by congruence. cbn [vd_stack set_stack].
  split; [congruence|lia].
Qed.

Lemma u32_nonneg z : 0 <= u32 z < two32.
Proof. unfold u32. apply Z.mod_pos_bound. reflexivity. Qed.

(* The operands of the instructions that move the stack are 32-bit values. *)
Lemma decode_ops code pc i : Forall is_i32 code -> Interp_Model.decode code pc = Some i ->
  match i with
  | STACK v => is_i32 v
  | SYSREQ_N n k => is_i32 n /\ is_i32 k
  | GENARRAY n _ => is_i32 n
  | PUSH_C l => is_i32 (last l 0) /\ (length l <= 5)%nat
  | PUSH l | PUSH_S l | PUSH_ADR l => (length l <= 5)%nat
  | _ => True
  end.
Proof.
  intros C H. pose proof (fun k => cell_at_i32 code k C) as R.
  unfold Interp_Model.decode in H. cbv zeta in H.
  destruct (cell_at code pc) as [|q|q]; try discriminate H.
  do 8 (try (destruct q as [q|q|]; try discriminate H)).
  all: match type of H with Some ?x = _ => assert (i = x) as -> by congruence end; clear H.
  all: try exact I.
  all: cbn [last length]; try lia; try (split; [apply R|lia]); try apply R; try (split; apply R).
Qed.

Definition depth_ok (d : vdata) (mx : Z) : Prop := 0 <= vd_stack d <= mx /\ vd_stack d <= INT_MAX4.

Lemma set_data_stack d h t s : vd_stack (set_heap h d) = vd_stack d /\ vd_stack (set_tracker t d) = vd_stack d /\ vd_stack (set_scope s d) = vd_stack d.
Proof. repeat split. Qed.

Lemma push_heap_stack n d d' : push_heap n d = CGood d' -> vd_stack d' = vd_stack d.
Proof.
  unfold push_heap. destruct (_ || _); [discriminate|]. destruct (vd_heap d) as [|h t].
  - intro H. assert (d' = set_heap [n] d) as -> by congruence. reflexivity.
  - destruct (h =? -1); intro H; match type of H with CGood ?x = _ => assert (d' = x) as -> by congruence end; reflexivity.
Qed.

Lemma pop_heap_stack n d d' : pop_heap n d = CGood d' -> vd_stack d' = vd_stack d.
Proof.
  unfold pop_heap. destruct (vd_heap d) as [|h t]; [discriminate|]. destruct (_ || _); [discriminate|].
  destruct (wrap32 (h - n) =? 0); intro H; match type of H with CGood ?x = _ => assert (d' = x) as -> by congruence end; reflexivity.
Qed.

(* A call consumes what the constant pushed before it says. *)
Lemma push_constant_decode env prev n : push_constant env prev = Some n ->
  exists c l, prev = Some c /\ Interp_Model.decode (v_code env) c = Some (PUSH_C l) /\ n = last l 0.
Proof.
  unfold push_constant. destruct prev as [c|]; [|discriminate].
  destruct (Interp_Model.decode (v_code env) c) as [i|] eqn:D; [|discriminate]. destruct i; try discriminate.
  intro H. exists c, l. split; [reflexivity|]. split; [exact D|]. congruence.
Qed.

Lemma follows_one d x mx : 0 <= d -> 0 <= d + x -> d <= mx -> d + x <= mx -> follows d [x] (4 * mx).
Proof. intros. cbn [follows]. repeat split; lia. Qed.

(* What accepting an instruction tells about the stack. *)
Lemma op_moves env args sizes pc prev i d mx d' mx' : code_ok (v_code env) -> Interp_Model.decode (v_code env) pc = Some i ->
  depth_ok d mx -> verify_op env args sizes prev i (d, mx) = CGood (d', mx') ->
  depth_ok d' mx' /\ mx <= mx' /\
  exists ms, moves (v_code env) prev i = Some ms /\ follows (vd_stack d) ms (4 * mx') /\ vd_stack d' = vd_stack d + total ms.
Proof.
  intros (CO & _) D (DO1 & DO2) H. pose proof (decode_ops _ _ _ CO D) as R.
  assert (SAME : forall d1, vd_stack d1 = vd_stack d -> moves (v_code env) prev i = Some [] -> d' = d1 -> mx' = mx ->
    depth_ok d' mx' /\ mx <= mx' /\ exists ms, moves (v_code env) prev i = Some ms /\ follows (vd_stack d) ms (4 * mx') /\ vd_stack d' = vd_stack d + total ms).
  { intros d1 E M -> ->. unfold depth_ok. rewrite E. split; [lia|split; [lia|]]. exists []. split; [exact M|]. cbn [follows total fold_right]. lia. }
  assert (PUSHN : forall n, 0 <= n < two32 -> moves (v_code env) prev i = Some [n] -> push_stack n (d, mx) = CGood (d', mx') ->
    depth_ok d' mx' /\ mx <= mx' /\ exists ms, moves (v_code env) prev i = Some ms /\ follows (vd_stack d) ms (4 * mx') /\ vd_stack d' = vd_stack d + total ms).
  { intros n B M P. apply push_good in P; [|exact B]. unfold depth_ok. split; [lia|split; [lia|]]. exists [n]. split; [exact M|].
    split; [apply follows_one; lia|cbn [total fold_right]; lia]. }
  assert (POPN : forall n, moves (v_code env) prev i = Some [- u32 n] -> pop_stack n (d, mx) = CGood (d', mx') ->
    depth_ok d' mx' /\ mx <= mx' /\ exists ms, moves (v_code env) prev i = Some ms /\ follows (vd_stack d) ms (4 * mx') /\ vd_stack d' = vd_stack d + total ms).
  { intros n M P. apply pop_good in P. pose proof (u32_nonneg n). unfold depth_ok. split; [lia|split; [lia|]]. exists [- u32 n]. split; [exact M|].
    split; [apply follows_one; lia|cbn [total fold_right]; lia]. }
  assert (LEN : forall k : nat, (k <= 5)%nat -> 0 <= Z.of_nat k < two32) by (intros; unfold two32; lia).
  destruct i; cbn [verify_op] in H;
    try (apply check_good in H; destruct H as (H & _); apply (SAME d); [reflexivity|reflexivity|congruence|congruence]);
    try (apply (SAME d); [reflexivity|reflexivity|congruence|congruence]);
    try discriminate H.
  - (* PUSHR *) apply (PUSHN 1); [unfold two32; lia|reflexivity|exact H].
  - apply (PUSHN (Z.of_nat (length l))); [apply LEN; tauto|reflexivity|exact H].
  - apply cbind_good in H. destruct H as (x & C & H). apply check_good in C. destruct C as (-> & _).
    apply (PUSHN (Z.of_nat (length l))); [apply LEN; exact R|reflexivity|exact H].
  - apply cbind_good in H. destruct H as (x & C & H). apply check_good in C. destruct C as (-> & _).
    apply (PUSHN (Z.of_nat (length l))); [apply LEN; exact R|reflexivity|exact H].
  - apply cbind_good in H. destruct H as (x & C & H). apply check_good in C. destruct C as (-> & _).
    apply (PUSHN (Z.of_nat (length l))); [apply LEN; exact R|reflexivity|exact H].
  - apply (PUSHN 2); [unfold two32; lia|reflexivity|exact H].
  - apply (POPN 1); [reflexivity|exact H].
  - (* STACK *)
    destruct (v_typed env); [discriminate|]. destruct (a mod 4 =? 0) eqn:A4; [|discriminate]. cbn [negb] in H.
    assert (Q : Z.quot a 4 = a / 4).
    { assert (a = 4 * (a / 4)) as E4 by lia. rewrite E4 at 1. rewrite Z.mul_comm, Z.quot_mul by lia. reflexivity. }
    rewrite Q in H. unfold is_i32, two31 in R.
    destruct (a <? 0) eqn:N.
    + apply (PUSHN (Z.abs (a / 4))); [unfold two32; lia| |exact H]. cbn [moves]. do 2 f_equal. lia.
    + apply (POPN (Z.abs (a / 4))); [|exact H]. cbn [moves]. do 3 f_equal. rewrite u32_id by (unfold is_u32, two32; lia). lia.
  - (* HEAP *)
    destruct (negb (a mod 4 =? 0)); [discriminate|]. destruct (v_scopes env).
    + apply check_good in H. destruct H as (H & _). apply (SAME d); [reflexivity|reflexivity|congruence|congruence].
    + destruct (0 <=? a); apply cbind_good in H; destruct H as (d1 & P & H).
      * apply push_heap_stack in P. apply (SAME d1); [exact P|reflexivity|congruence|congruence].
      * apply pop_heap_stack in P. apply (SAME d1); [exact P|reflexivity|congruence|congruence].
  - (* CALL *)
    destruct (push_constant env prev) as [n|] eqn:PC; [|discriminate].
    apply cbind_good in H. destruct H as (x & C & H). apply check_good in C. destruct C as (-> & _).
    apply push_constant_decode in PC. destruct PC as (c & l & -> & DL & ->).
    pose proof (decode_ops _ _ _ CO DL) as (RL & _).
    pose proof (pop_good _ _ _ _ _ H) as (_ & PB & _).
    assert (U : u32 (wrap32 (last l 0 + 1)) = last l 0 + 1).
    { unfold is_i32, two31, INT_MAX4, u32, wrap32, two32 in *. lia. }
    apply (POPN (wrap32 (last l 0 + 1))); [|exact H]. cbn [moves]. rewrite DL, U. reflexivity.
  - (* SYSREQ_N *)
    apply cbind_good in H. destruct H as (x & C & H). apply check_good in C. destruct C as (-> & _).
    apply cbind_good in H. destruct H as ((d1 & m1) & P & H). apply cbind_good in H. destruct H as ((d2 & m2) & Q & H).
    apply check_good in H. destruct H as (H & K).
    assert (d' = d2 /\ mx' = m2) as (-> & ->) by (split; congruence).
    apply push_good in P; [|unfold two32; lia]. apply pop_good in Q.
    unfold SP_MAX_CALL_ARGUMENTS in K.
    assert (U : u32 (wrap32 (k + 1)) = k + 1) by (rewrite wrap32_id by (unfold is_i32, two31; lia); apply u32_id; unfold is_u32, two32; lia).
    rewrite U in Q. unfold depth_ok. split; [lia|split; [lia|]]. exists [1; - (k + 1)]. split; [reflexivity|].
    cbn [follows total fold_right]. lia.
  - (* SWAP *)
    apply cbind_good in H. destruct H as ((d1 & m1) & P & H). apply pop_good in P. apply push_good in H; [|unfold two32; lia].
    assert (u32 1 = 1) as U by reflexivity. rewrite U in P. unfold depth_ok. split; [lia|split; [lia|]]. exists [-1; 1]. split; [reflexivity|].
    cbn [follows total fold_right]. lia.
  - (* TRACKER_PUSH_C *)
    destruct (v_scopes env); [discriminate|]. destruct ((n <? 0) || _); [discriminate|]. destruct (_ && _); [discriminate|].
    apply (SAME (set_tracker (n / 4 :: vd_tracker d) d)); [reflexivity|reflexivity|congruence|congruence].
  - (* TRACKER_POP_SETHEAP *)
    destruct (v_scopes env); [discriminate|]. destruct (vd_tracker d) as [|a t]; [discriminate|].
    destruct (a =? 0); [apply (SAME (set_tracker t d)); [reflexivity|reflexivity|congruence|congruence]|].
    destruct (a =? -1).
    + destruct (vd_heap d) as [|h hs]; [discriminate|]. destruct (h =? -1); [|discriminate].
      apply (SAME (set_heap hs (set_tracker t d))); [reflexivity|reflexivity|congruence|congruence].
    + destruct (track_pop (vd_heap d) a) as [hs|]; [|discriminate].
      apply (SAME (set_heap hs (set_tracker t d))); [reflexivity|reflexivity|congruence|congruence].
  - (* GENARRAY *)
    apply cbind_good in H. destruct H as (x & C & H). apply check_good in C. destruct C as (-> & N).
    apply cbind_good in H. destruct H as ((d1 & m1) & P & H).
    assert (U : u32 (n - 1) = n - 1) by (apply u32_id; unfold is_u32, two32, is_i32, two31 in *; lia).
    apply pop_good in P. rewrite U in P.
    assert (S1 : vd_stack d' = vd_stack d1 /\ mx' = m1).
    { destruct (v_scopes env); [assert (d' = d1 /\ mx' = m1) as (-> & ->) by (split; congruence); split; reflexivity|].
      match type of H with CGood (?x, ?y) = _ => assert (d' = x /\ mx' = y) as (-> & ->) by (split; congruence) end. split; reflexivity. }
    unfold depth_ok. split; [lia|split; [lia|]]. exists [- (n - 1)]. split; [reflexivity|].
    split; [apply follows_one; lia|cbn [total fold_right]; lia].
  - (* INITARRAY *)
    destruct (v_direct env); [|discriminate].
    apply check_good in H. destruct H as (H & _). apply (SAME d); [reflexivity|reflexivity|congruence|congruence].
  - destruct (v_scopes env); [|discriminate].
    match type of H with CGood (?x, _) = _ => apply (SAME x); [reflexivity|reflexivity|congruence|congruence] end.
  - destruct (v_scopes env); [|discriminate]. destruct (vd_scope d =? 0); [discriminate|].
    match type of H with CGood (?x, _) = _ => apply (SAME x); [reflexivity|reflexivity|congruence|congruence] end.
Qed.

(* verifyOp moves by the size of the instruction. *)
Lemma vsize_insn code pc i : Interp_Model.decode code pc = Some i -> (forall v, i <> HALT v) -> vsize i = insn_size code pc.
Proof.
  intros H NH. unfold Interp_Model.decode in H. cbv zeta in H. unfold insn_size. cbv zeta.
  destruct (cell_at code pc) as [|q|q]; try discriminate H.
  do 8 (try (destruct q as [q|q|]; try discriminate H)).
  all: match type of H with Some ?x = _ => assert (i = x) as -> by congruence end; clear H.
  all: try reflexivity.
  exfalso. apply (NH (cell_at code (pc + 1))). reflexivity.
Qed.

Lemma op_not_halt env args sizes prev i x y : verify_op env args sizes prev i x = CGood y -> forall v, i <> HALT v.
Proof. intros H v ->. destruct x. discriminate H. Qed.

(* --- The instructions of the method in order --- *)
Lemma prescan_loop_stop strict code m fuel : forall cip i t pr, prescan_loop strict code m fuel cip i t = CGood pr ->
  ~ instr_at code (pr_stop pr).
Proof.
  induction fuel as [|f IH]; intros cip i t pr H; [discriminate|]. cbn [prescan_loop] in H.
  destruct (code_cells code <? cip + 1) eqn:E.
  - match type of H with CGood ?x = _ => assert (pr = x) as -> by congruence end. cbn [pr_stop].
    intros (A & _). unfold code_cells in E. lia.
  - destruct (cip <? 0); [discriminate|]. cbv zeta in H.
    destruct ((cell_at code cip =? OP_PROC) || (cell_at code cip =? OP_ENDPROC)) eqn:F.
    + match type of H with CGood ?x = _ => assert (pr = x) as -> by congruence end. cbn [pr_stop].
      intros (_ & A & B & _). lia.
    + destruct ((cell_at code cip <=? 0) || (OPCODES_LAST <=? cell_at code cip)); [discriminate|].
      apply cbind_good in H. destruct H as ((c1 & params) & _ & H).
      destruct (strict && (params <? 0)); [discriminate|]. destruct (code_cells code <? c1 + params); [discriminate|].
      apply cbind_good in H. destruct H as (ts & _ & H). exact (IH _ _ _ _ H).
Qed.

Lemma path_last entry succ l b : path entry succ l b -> b = entry \/ exists a, In b (succ a).
Proof. destruct 1 as [|l a b P H]; [left; reflexivity|right; exists a; exact H]. Qed.

Section Method.
Variable strict : bool.
Variable rounds fuel : nat.
Variable code : list Z.
Variable m : Z.
Variable pr : pre.
Variable g : graph.
Variable an : analysis.
Hypothesis CO : code_ok code.
Hypothesis M0 : 0 <= m.
Hypothesis CK : counts_ok code m.
Hypothesis BU : build strict rounds fuel code m = CGood (pr, g, an).

Notation insns := (pr_insns pr).
Notation targets := (pr_targets pr).
Notation nxt := (fun c => c + insn_size code c).
Notation blocks := (m :: g_known g).

Lemma build_parts : pre_inv code m (pr_stop pr) insns targets /\ ~ instr_at code (pr_stop pr) /\
  (forall b, In b (g_known g) -> walk code pr (g_known g) b) /\ walk code pr (g_known g) (m + 1) /\
  blocks_ok code m pr g /\ analysed m (g_succ g) an /\ cell_at code m = OP_PROC /\ m < Z.of_nat (length code).
Proof.
  pose proof (build_good strict rounds fuel code m pr g an CO BU) as (B & A & _).
  unfold build in BU. apply cbind_good in BU. destruct BU as ((pr' & g') & S & H).
  apply cbind_good in H. destruct H as (a' & _ & H). assert (pr' = pr /\ g' = g) as (-> & ->) by (split; congruence).
  unfold scan_method in S. apply cbind_good in S. destruct S as (pr' & P & S).
  apply cbind_good in S. destruct S as (g' & S & Q). assert (pr' = pr /\ g' = g) as (-> & ->) by (split; congruence).
  pose proof (prescan_inv strict code m CO fuel pr P) as PI.
  pose proof (scan_spec strict code m pr PI fuel g S) as (W1 & W2).
  unfold prescan in P. destruct (code_cells code <? m + 1) eqn:L; [discriminate|].
  destruct (Z.eqb_spec (cell_at code m) OP_PROC) as [E|E]; [|discriminate]. cbn [negb] in P.
  split; [exact PI|]. split; [exact (prescan_loop_stop _ _ _ _ _ _ _ _ P)|].
  split; [exact W1|]. split; [exact W2|]. split; [exact B|]. split; [exact A|]. split; [exact E|]. unfold code_cells in L. lia.
Qed.

Lemma insn_pos c : In c insns -> 0 < insn_size code c.
Proof.
  intro H. destruct build_parts as ((_ & P & _) & _). destruct (P c H) as (S & _).
  exact (proj1 (scanned_pos code m CO CK targets c S)).
Qed.

Lemma swept_in c : swept code m c -> In c insns \/ c = pr_stop pr.
Proof.
  destruct build_parts as ((_ & P & P3) & NS & _).
  induction 1 as [|q S IH I].
  - destruct P3 as [Q|Q]; [left; exact Q|right; congruence].
  - destruct IH as [IH|IH]; [|subst q; contradiction]. destruct (P q IH) as (_ & [Q|Q]); [left; exact Q|right; exact Q].
Qed.

Lemma in_swept c : In c insns -> swept code m c.
Proof. intro H. destruct build_parts as ((_ & P & _) & _). destruct (P c H) as (((S & _) & _) & _). exact S. Qed.

(* The [k]th cell met. *)
Fixpoint place (k : nat) : Z := match k with O => m + 1 | S k' => nxt (place k') end.

Lemma swept_place c : swept code m c -> exists k, c = place k /\ forall j, (j < k)%nat -> In (place j) insns.
Proof.
  destruct build_parts as (_ & NS & _).
  induction 1 as [|q SW IH I].
  - exists 0%nat. split; [reflexivity|]. intros; lia.
  - destruct IH as (k & -> & A). exists (S k). split; [reflexivity|]. intros j L.
    destruct (Nat.eq_dec j k) as [->|N]; [|apply A; lia].
    destruct (swept_in _ SW) as [Q|Q]; [exact Q|]. rewrite Q in I. contradiction.
Qed.

Lemma place_lt i j : (i < j)%nat -> (forall l, (l < j)%nat -> In (place l) insns) -> nxt (place i) <= place j.
Proof.
  intros L. induction L as [|j L IH]; intro A.
  - cbn [place]. lia.
  - cbn [place]. assert (B : nxt (place i) <= place j) by (apply IH; intros; apply A; lia).
    pose proof (insn_pos (place j) (A j (Nat.lt_succ_diag_r j))). cbv beta in *. lia.
Qed.

Lemma nxt_gap a c : In a insns -> swept code m c -> a < c -> nxt a <= c.
Proof.
  intros Ha Sc L. destruct (swept_place a (in_swept a Ha)) as (i & Ei & Ai). destruct (swept_place c Sc) as (j & Ej & Aj).
  destruct (Nat.lt_ge_cases i j) as [Q|Q].
  - rewrite Ei, Ej. apply place_lt; assumption.
  - destruct (Nat.eq_dec i j) as [->|N]; [lia|].
    pose proof (place_lt j i ltac:(lia) Ai) as W. pose proof (insn_pos (place j) (Ai j ltac:(lia))). cbv beta in W. lia.
Qed.

Lemma nxt_inj a b : In a insns -> In b insns -> nxt a = nxt b -> a = b.
Proof.
  intros Ha Hb E. cbv beta in E. pose proof (insn_pos a Ha). pose proof (insn_pos b Hb).
  destruct (Z.lt_trichotomy a b) as [L|[L|L]]; [|exact L|].
  - pose proof (nxt_gap a b Ha (in_swept b Hb) L). cbv beta in *. lia.
  - pose proof (nxt_gap b a Hb (in_swept a Ha) L). cbv beta in *. lia.
Qed.

Lemma swept_ge c : swept code m c -> m + 1 <= c.
Proof.
  intro SW. destruct (swept_place c SW) as (k & -> & A). destruct k as [|k]; [cbn; lia|].
  pose proof (place_lt 0 (S k) ltac:(lia) A) as W. pose proof (insn_pos (place 0) (A 0%nat ltac:(lia))) as W2. cbn [place] in *. lia.
Qed.

(* --- Blocks --- *)
Notation span := (span code m targets).
Notation joins := (joins targets).

Lemma block_walk b : In b blocks -> walk code pr (g_known g) (first_of m b).
Proof.
  destruct build_parts as (_ & _ & W1 & W2 & BO & _). intros [<-|H]; unfold first_of.
  - rewrite Z.eqb_refl. exact W2.
  - destruct (Z.eqb_spec b m) as [->|N]; [|exact (W1 b H)]. exact W2.
Qed.

Lemma entry_not_known : ~ In m (g_known g).
Proof. destruct build_parts as (_ & _ & _ & _ & BO & _). pose proof (bo_nodup _ _ _ _ BO) as N. inversion N; assumption. Qed.

Lemma first_known b : In b (g_known g) -> first_of m b = b.
Proof. intro H. unfold first_of. destruct (Z.eqb_spec b m) as [->|N]; [destruct (entry_not_known H)|reflexivity]. Qed.

Lemma walk_next c : walk code pr (g_known g) c -> is_control (cell_at code c) = false -> walk code pr (g_known g) (nxt c).
Proof.
  destruct build_parts as (_ & _ & W1 & W2 & _).
  intros W NC. destruct W as [c I E|c I E T|c I J T N|c I E T C A|c I _ W|c I _ W].
  - rewrite E in NC. discriminate.
  - rewrite E in NC. discriminate.
  - unfold is_control in NC. rewrite J in NC. discriminate.
  - rewrite E in NC. discriminate.
  - exact W.
  - exact (W1 _ W).
Qed.

Lemma span_walk b c : In b blocks -> span b c -> walk code pr (g_known g) c.
Proof. intros B S. induction S as [|c S IH NJ NC]; [exact (block_walk b B)|]. exact (walk_next c IH NC). Qed.

Lemma span_insn b c : In b blocks -> span b c -> In c insns.
Proof. intros B S. exact (walk_in code pr _ c (span_walk b c B S)). Qed.

Lemma span_ge b c : In b blocks -> span b c -> first_of m b <= c.
Proof.
  intros B S. induction S as [|c S IH NJ NC]; [lia|]. pose proof (insn_pos c (span_insn b c B S)). lia.
Qed.

(* A block other than the entry is a jump target or follows a conditional jump. *)
Lemma known_cases b : In b (g_known g) -> In b targets \/
  exists c, In c insns /\ is_control (cell_at code c) = true /\ b = nxt c.
Proof.
  intro Hb. destruct build_parts as (PI & _ & W1 & W2 & BO & _).
  destruct (bo_reach _ _ _ _ BO b (or_intror Hb)) as (l & P).
  assert (Q : exists a, In b (g_succ g a)).
  { destruct (path_last _ _ _ _ P) as [E|E]; [rewrite E in Hb; destruct (entry_not_known Hb)|exact E]. }
  destruct Q as (a & Q). destruct (bo_edge _ _ _ _ BO a b Q) as (Ba & _).
  destruct (bo_end _ _ _ _ BO a Ba) as (e & BE & _).
  remember (g_succ g a) as ss eqn:ES. destruct BE as [c S J|c S NJ E|c S NJ E|c S NJ J NE|c S NJ E T].
  - destruct Q as [<- |[]]. left. apply J.
  - destruct Q.
  - destruct Q as [<- |[]]. destruct PI as (_ & PI & _).
    destruct (PI c (span_insn a c Ba S)) as ((_ & K & _) & _). left. apply K. rewrite E. reflexivity.
  - destruct Q as [<- |[<- |[]]].
    + right. exists c. split; [exact (span_insn a c Ba S)|]. split; [unfold is_control; rewrite J; reflexivity|].
      rewrite (size_jump code c J). reflexivity.
    + destruct PI as (_ & PI & _). destruct (PI c (span_insn a c Ba S)) as ((_ & K & _) & _). left. apply K. exact J.
  - left. pose proof (span_walk a c Ba S) as W. destruct PI as (_ & PI & _).
    inversion W as [c' I X|c' I X Y|c' I X Y V|c' I X Y V U|c' I X Y|c' I X Y]; subst c'; try (rewrite E in X; discriminate).
    destruct (PI _ Y) as ((_ & _ & _ & K) & _). destruct (K T) as (K1 & _ & K2).
    apply in_map_iff in Q. destruct Q as (o & <- & Q). unfold table_offsets in Q. destruct Q as [<- |Q]; [apply K1|].
    assert (G : forall k pos o, In o (case_offsets code k pos) -> exists i, 0 <= i < Z.of_nat k /\ o = cell_at code (pos + 1 + 2 * i)).
    { clear. induction k as [|k IH]; intros pos o H; [destruct H|]. cbn [case_offsets] in H. destruct H as [<- |H].
      - exists 0. split; [lia|]. f_equal. lia.
      - destruct (IH _ _ H) as (i & I1 & ->). exists (i + 1). split; [lia|]. f_equal. lia. }
    destruct (G _ _ _ Q) as (i & I1 & ->). 
    assert (KB : checked targets (cell_at code (cell_at code (c + 1) / 4 + 4 + 2 * i))) by (apply K2; lia).
    replace (cell_at code (c + 1) / 4 + 3 + 1 + 2 * i) with (cell_at code (c + 1) / 4 + 4 + 2 * i) by lia. apply KB.
Qed.

(* An instruction belongs to one block. *)
Lemma belongs_first b1 b2 : In b1 blocks -> In b2 blocks -> span b2 (first_of m b1) -> ~ joins b1 (first_of m b1) -> ~ joins b2 (first_of m b1) -> b1 = b2.
Proof.
  intros B1 B2 S J1 J2. destruct (Z.eq_dec b1 b2) as [E|NE]; [exact E|exfalso].
  assert (IN : forall c, In c insns -> is_control (cell_at code c) = true -> nxt c = first_of m b1 -> False).
  { intros c Ic CC Ec. inversion S as [E|c' S' NJ NC E].
    - destruct B2 as [<- |B2].
      + unfold first_of in E at 1. rewrite Z.eqb_refl in E. pose proof (swept_ge c (in_swept c Ic)). pose proof (insn_pos c Ic). cbv beta in Ec. lia.
      + rewrite (first_known b2 B2) in E. destruct B1 as [<- |B1].
        * unfold first_of in Ec at 1. rewrite Z.eqb_refl in Ec. pose proof (swept_ge c (in_swept c Ic)). pose proof (insn_pos c Ic). cbv beta in Ec. lia.
        * rewrite (first_known b1 B1) in E. congruence.
    - assert (c' = c) by (apply nxt_inj; [exact (span_insn b2 c' B2 S')|exact Ic|cbv beta in *; lia]). subst c'. congruence. }
  destruct B1 as [E1|B1].
  - subst b1. unfold first_of in *. rewrite Z.eqb_refl in *.
    inversion S as [E|c' S' NJ NC E].
    + destruct B2 as [E2|B2]; [contradiction|]. rewrite (first_known b2 B2) in E. subst b2.
      destruct (known_cases _ B2) as [T|(c & Ic & CC & Ec)]; [|exact (IN c Ic CC (eq_sym Ec))].
      apply J1. split; [exact T|lia].
    + pose proof (span_insn b2 c' B2 S') as Ic. pose proof (swept_ge c' (in_swept c' Ic)). pose proof (insn_pos c' Ic). lia.
  - rewrite (first_known b1 B1) in *. destruct (known_cases _ B1) as [T|(c & Ic & CC & Ec)]; [|exact (IN c Ic CC (eq_sym Ec))].
    apply J2. split; assumption.
Qed.

Lemma belongs_one b1 b2 c : In b1 blocks -> In b2 blocks -> span b1 c -> span b2 c -> ~ joins b1 c -> ~ joins b2 c -> b1 = b2.
Proof.
  intros B1 B2 S1. revert b2 B2. induction S1 as [|c S1 IH NJ NC]; intros b2 B2 S2 J1 J2.
  - exact (belongs_first b1 b2 B1 B2 S2 J1 J2).
  - inversion S2 as [E|c' S' NJ' NC' E].
    + symmetry. apply (belongs_first b2 b1 B2 B1).
      * rewrite E. apply span_next; assumption.
      * rewrite E. exact J2.
      * rewrite E. exact J1.
    + assert (c' = c) by (apply nxt_inj; [exact (span_insn b2 c' B2 S')|exact (span_insn b1 c B1 S1)|cbv beta; lia]). subst c'.
      exact (IH b2 B2 S' NJ NJ').
Qed.

(* The block's last instruction, or the block it runs into, comes after every other cell passed. *)
Lemma span_le b t c : In b blocks -> span b t -> joins b t \/ is_control (cell_at code t) = true -> span b c -> c <= t.
Proof.
  intros B St T S. induction S as [|c S IH NJ NC]; [exact (span_ge b t B St)|].
  assert (N : c <> t) by (intros ->; destruct T as [T|T]; [contradiction|congruence]).
  exact (nxt_gap c t (span_insn b c B S) (in_swept t (span_insn b t B St)) ltac:(lia)).
Qed.
End Method.

(* --- Positions in the order --- *)
Lemma id_app l1 l2 x : (In x l1 -> id_of (l1 ++ l2) x = id_of l1 x /\ id_of l1 x <= Z.of_nat (length l1)) /\
  (~ In x l1 -> In x l2 -> Z.of_nat (length l1) < id_of (l1 ++ l2) x).
Proof.
  induction l1 as [|a l1 IH]; cbn [app id_of length].
  - split; [intros []|]. intros _ H. apply (proj1 (id_pos l2 x)) in H. lia.
  - destruct (Z.eqb_spec a x) as [->|N].
    + split; [intros _; split; [reflexivity|lia]|]. intros NI. destruct NI. left; reflexivity.
    + destruct IH as (I1 & I2). split.
      * intros [H|H]; [contradiction|]. destruct (I1 H) as (E & L). rewrite E. split; [reflexivity|]. destruct (id_of l1 x) eqn:Z0; lia.
      * intros NI H. assert (NI' : ~ In x l1) by (intro; apply NI; right; assumption). specialize (I2 NI' H).
        destruct (id_of (l1 ++ l2) x) eqn:Z0; lia.
Qed.

Lemma id_in_prefix l1 l2 p b : NoDup (l1 ++ l2) -> In b l1 -> In p (l1 ++ l2) -> id_of (l1 ++ l2) p < id_of (l1 ++ l2) b -> In p l1.
Proof.
  intros ND B P L. destruct (in_dec Z.eq_dec p l1) as [H|H]; [exact H|].
  apply in_app_or in P. destruct P as [P|P]; [exact P|].
  destruct (id_app l1 l2 b) as (I1 & _). destruct (I1 B) as (E & L1).
  destruct (id_app l1 l2 p) as (_ & I2). specialize (I2 H P). lia.
Qed.

(* --- The joins --- *)
Lemma merge_tracker_stack strict env g an fuel b bug j o bug' j' : merge_tracker strict env g an fuel b bug j o = CGood (bug', j') ->
  vd_stack j' = vd_stack j /\ vd_stack o = vd_stack j.
Proof.
  unfold merge_tracker. intro H. apply cbind_good in H. destruct H as (f & V & H).
  unfold verify_join in V. destruct (Z.eqb_spec (vd_stack j) (vd_stack o)) as [E|E]; [|discriminate]. cbv zeta in H.
  split; [|congruence].
  destruct (v_scopes env); [congruence|]. destruct (bug || f); [congruence|].
  apply cbind_good in H. destruct H as (x & _ & H). match type of H with CGood (_, ?y) = _ => assert (j' = y) as -> by congruence end. reflexivity.
Qed.

Lemma join_preds_spec strict env g an fuel data b ps : forall later bug found entry later' bug' found' entry',
  (match found with Some d => exists e, entry = Some e /\ vd_stack e = vd_stack d | None => entry = None end) ->
  join_preds strict env g an fuel data b ps later bug found entry = CGood (later', bug', found', entry') ->
  (later = true -> later' = true) /\
  ((exists p, In p ps /\ id_of (an_rpo an) b <= id_of (an_rpo an) p) -> later' = true) /\
  match found' with
  | Some d => (exists e, entry' = Some e /\ vd_stack e = vd_stack d) /\
              (forall d0, found = Some d0 -> vd_stack d0 = vd_stack d) /\
              (forall p, In p ps -> id_of (an_rpo an) p < id_of (an_rpo an) b -> vd_stack (data p) = vd_stack d) /\
              (found = None -> exists p, In p ps /\ id_of (an_rpo an) p < id_of (an_rpo an) b)
  | None => found = None /\ entry' = None /\ forall p, In p ps -> id_of (an_rpo an) b <= id_of (an_rpo an) p
  end.
Proof.
  induction ps as [|p ps IH]; intros later bug found entry later' bug' found' entry' I H; cbn [join_preds] in H.
  - assert (later' = later /\ found' = found /\ entry' = entry) as (-> & -> & ->) by (split; [|split]; congruence).
    split; [tauto|]. split; [intros (q & [] & _)|]. destruct found as [d|].
    + split; [exact I|]. split; [congruence|]. split; [intros q []|discriminate].
    + split; [reflexivity|]. split; [exact I|intros q []].
  - destruct (id_of (an_rpo an) b <=? id_of (an_rpo an) p) eqn:L.
    + destruct (IH _ _ _ _ _ _ _ _ I H) as (A & B & C). specialize (A eq_refl). split; [tauto|]. split; [tauto|].
      destruct found' as [d|].
      * destruct C as (C1 & C2 & C3 & C4). split; [exact C1|]. split; [exact C2|]. split.
        -- intros q [<- |Q] LQ; [lia|exact (C3 q Q LQ)].
        -- intro N. destruct (C4 N) as (q & Q & LQ). exists q. split; [right; exact Q|exact LQ].
      * destruct C as (C1 & C2 & C3). split; [exact C1|]. split; [exact C2|]. intros q [<- |Q]; [lia|exact (C3 q Q)].
    + destruct found as [d0|].
      * apply cbind_good in H. destruct H as ((bg & d1) & M & H). apply merge_tracker_stack in M. destruct M as (M1 & M2). cbn [fst snd] in H.
        assert (I' : exists e, entry = Some e /\ vd_stack e = vd_stack d1) by (destruct I as (e & E1 & E2); exists e; split; [exact E1|congruence]).
        destruct (IH _ _ (Some d1) _ _ _ _ _ I' H) as (A & B & C). split; [exact A|]. split.
        -- intros (q & [<- |Q] & LQ); [lia|]. apply B. exists q. tauto.
        -- destruct found' as [d|]; [|destruct C as (C & _); discriminate].
           destruct C as (C1 & C2 & C3 & C4). split; [exact C1|]. specialize (C2 d1 eq_refl). split; [intros z Z; congruence|]. split.
           ++ intros q [<- |Q] LQ; [congruence|exact (C3 q Q LQ)].
           ++ discriminate.
      * assert (I' : exists e, Some (data p) = Some e /\ vd_stack e = vd_stack (data p)) by (exists (data p); split; reflexivity).
        destruct (IH _ _ (Some (data p)) _ _ _ _ _ I' H) as (A & B & C). split; [exact A|]. split.
        -- intros (q & [<- |Q] & LQ); [lia|]. apply B. exists q. tauto.
        -- destruct found' as [d|]; [|destruct C as (C & _); discriminate].
           destruct C as (C1 & C2 & C3 & C4). split; [exact C1|]. split; [discriminate|]. split.
           ++ intros q [<- |Q] LQ; [exact (C2 _ eq_refl)|exact (C3 q Q LQ)].
           ++ intros _. exists p. split; [left; reflexivity|lia].
Qed.

(* --- The instructions of a block --- *)
Lemma verify_insns_depth env args sizes fuel e : code_ok (v_code env) -> forall prev c x y,
  verify_insns env args sizes fuel e prev c x = CGood y -> depth_ok (fst x) (snd x) ->
  depth_ok (fst y) (snd y) /\ snd x <= snd y.
Proof.
  intro CO. induction fuel as [|f IH]; intros prev c x y H DO; [discriminate|]. cbn [verify_insns] in H.
  destruct (e <=? c); [assert (y = x) as -> by congruence; split; [exact DO|lia]|].
  destruct (_ || _); [discriminate|]. destruct (Interp_Model.decode (v_code env) c) as [i|] eqn:D; [|discriminate].
  destruct (code_cells (v_code env) <? c + vreads i); [discriminate|].
  apply cbind_good in H. destruct H as ((d1 & m1) & V & H). destruct x as (d & mx).
  destruct (op_moves _ _ _ _ _ _ _ _ _ _ CO D DO V) as (DO1 & L & _). destruct (IH _ _ _ _ H DO1) as (A & B). cbn [fst snd] in *. split; [exact A|lia].
Qed.

Section Loop.
Variable strict : bool.
Variable env : venv.
Variable g : graph.
Variable an : analysis.
Variable args : Z.
Variable sizes : list Z.
Variable fuel : nat.
Hypothesis CO : code_ok (v_code env).
Hypothesis ND : NoDup (an_rpo an).
Hypothesis PR : forall b p, In b (an_rpo an) -> In p (g_pred g b) -> In p (an_rpo an).
Notation id := (id_of (an_rpo an)).
Notation preds := (g_pred g).

(* What is known of a block gone through: the data it was entered with and left with. *)
Record gone (st : vstate) (b : Z) : Prop := {
  gone_run : exists x0 x1,
    verify_insns env args sizes fuel (end_of g b) None b x0 = CGood x1 /\ depth_ok (fst x0) (snd x0) /\
    fst x1 = vs_data st b /\ snd x1 <= vs_max st /\ (preds b = [] -> fst x0 = vd0) /\
    (forall p, In p (preds b) -> id p < id b -> vd_stack (vs_data st p) = vd_stack (fst x0)) /\
    (forall e, vs_entry st b = Some e -> vd_stack e = vd_stack (fst x0));
  gone_later : (exists p, In p (preds b) /\ id b <= id p) -> In b (vs_later st) }.

Lemma verify_blocks_gone : forall bs done st st', an_rpo an = done ++ bs -> 0 <= vs_max st ->
  (forall b, In b done -> gone st b) ->
  (forall b, In b bs -> vs_data st b = vd0 /\ vs_entry st b = None) ->
  verify_blocks strict env g an args sizes fuel bs st = CGood st' ->
  forall b, In b (an_rpo an) -> gone st' b.
Proof.
  induction bs as [|b bs IH]; intros done st st' E M G F H; cbn [verify_blocks] in H.
  - assert (st' = st) as -> by congruence. rewrite E, app_nil_r. exact G.
  - apply cbind_good in H. destruct H as (st1 & J & H). apply cbind_good in H. destruct H as (x1 & V & H).
    unfold handle_joins in J. apply cbind_good in J. destruct J as ((((later & bug) & found) & entry) & JP & J).
    match type of J with CGood ?z = _ => assert (st1 = z) as E1 by congruence end. clear J.
    pose proof (join_preds_spec _ _ _ _ _ _ _ _ _ _ None None _ _ _ _ eq_refl JP) as (_ & L1 & S1). clear JP.
    assert (NB : ~ In b done /\ ~ In b bs).
    { rewrite E in ND. apply NoDup_remove_2 in ND. split; intro; apply ND; apply in_or_app; tauto. }
    assert (INB : In b (an_rpo an)) by (rewrite E; apply in_or_app; right; left; reflexivity).
    assert (PD : forall q p, In q (done ++ [b]) -> In p (preds q) -> id p < id q -> In p done).
    { intros q p Q P L. assert (Q' : In q (an_rpo an)) by (rewrite E; apply in_app_or in Q; apply in_or_app; destruct Q as [Q|[<- |[]]]; [left; exact Q|right; left; reflexivity]).
      pose proof (PR q p Q' P) as P'.
      assert (E2 : an_rpo an = (done ++ [b]) ++ bs) by (rewrite <- app_assoc; exact E).
      assert (P2 : In p (done ++ [b])) by (rewrite E2 in ND, P', L; exact (id_in_prefix _ _ p q ND Q P' L)).
      apply in_app_or in P2. destruct P2 as [P2|[<- |[]]]; [exact P2|]. exfalso.
      apply in_app_or in Q. destruct Q as [Q|[<- |[]]]; [|lia].
      assert (b <> q) by (intros ->; tauto).
      assert (IA : id_of (an_rpo an) q <= Z.of_nat (length done)) by (rewrite E; destruct (id_app done (b :: bs) q) as (I1 & _); destruct (I1 Q) as (I2 & I3); lia).
      assert (IB : Z.of_nat (length done) < id_of (an_rpo an) b) by (rewrite E; apply (proj2 (id_app done (b :: bs) b)); [tauto|left; reflexivity]).
      lia. }
    assert (D1 : forall q, q <> b -> vs_data st1 q = vs_data st q /\ vs_entry st1 q = vs_entry st q).
    { intros q Q. subst st1. cbn [vs_data vs_entry]. unfold upd. destruct found; destruct (Z.eqb_spec q b); try contradiction; split; reflexivity. }
    assert (DOX : depth_ok (vs_data st1 b) (vs_max st1)).
    { subst st1. cbn [vs_data vs_max]. destruct found as [d|].
      - unfold upd. rewrite Z.eqb_refl. destruct S1 as (_ & _ & S3 & S4). destruct (S4 eq_refl) as (p & P & LP).
        pose proof (PD b p ltac:(apply in_or_app; right; left; reflexivity) P LP) as PDn.
        destruct (gone_run _ _ (G p PDn)) as (y0 & y1 & R1 & R2 & R3 & R4 & _).
        destruct (verify_insns_depth _ _ _ _ _ CO _ _ _ _ R1 R2) as (Q & _). rewrite R3 in Q. unfold depth_ok in *.
        rewrite <- (S3 p P LP). lia.
      - destruct (F b (or_introl eq_refl)) as (-> & _). unfold depth_ok, vd0, INT_MAX4. cbn [vd_stack]. lia. }
    destruct (verify_insns_depth _ _ _ _ _ CO _ _ _ _ V DOX) as (DOY & MY). cbn [snd] in MY.
    assert (MX : vs_max st1 = vs_max st) by (subst st1; reflexivity).
    assert (LT : vs_later st1 = if later then vs_later st ++ [b] else vs_later st) by (subst st1; reflexivity).
    refine (IH (done ++ [b]) _ st' _ _ _ _ H).
    + rewrite <- app_assoc. exact E.
    + cbn [vs_max]. lia.
    + intros q Q. apply in_app_or in Q. destruct Q as [Q|[<- |[]]].
      * assert (NQ : q <> b) by (intros ->; tauto). destruct (G q Q) as [(y0 & y1 & R1 & R2 & R3 & R4 & R5 & R6 & R7) GL].
        destruct (D1 q NQ) as (Dq & Eq). constructor; cbn [vs_data vs_entry vs_max vs_later].
        -- exists y0, y1. split; [exact R1|]. split; [exact R2|]. split; [unfold upd; destruct (Z.eqb_spec q b); [contradiction|congruence]|].
           split; [lia|]. split; [exact R5|]. split.
           ++ intros p P LP. pose proof (PD q p ltac:(apply in_or_app; left; exact Q) P LP) as PDn.
              assert (NP : p <> b) by (intros ->; tauto). unfold upd. destruct (Z.eqb_spec p b); [contradiction|].
              rewrite (proj1 (D1 p NP)). exact (R6 p P LP).
           ++ intros e Ee. rewrite Eq in Ee. exact (R7 e Ee).
        -- intro X. specialize (GL X). rewrite LT. destruct later; [apply in_or_app; left; exact GL|exact GL].
      * constructor; cbn [vs_data vs_entry vs_max vs_later].
        -- exists (vs_data st1 b, vs_max st1), x1. split; [exact V|]. split; [exact DOX|]. split; [unfold upd; rewrite Z.eqb_refl; reflexivity|].
           split; [lia|]. cbn [fst]. split; [|split].
           ++ intro PN. subst st1. cbn [vs_data]. destruct found as [d|].
              ** destruct S1 as (_ & _ & _ & S4). destruct (S4 eq_refl) as (p & P & _). rewrite PN in P. destruct P.
              ** exact (proj1 (F b (or_introl eq_refl))).
           ++ intros p P LP. pose proof (PD b p ltac:(apply in_or_app; right; left; reflexivity) P LP) as PDn.
              assert (NP : p <> b) by (intros ->; tauto). unfold upd at 1. destruct (Z.eqb_spec p b); [contradiction|].
              rewrite (proj1 (D1 p NP)). subst st1. cbn [vs_data]. destruct found as [d|].
              ** unfold upd. rewrite Z.eqb_refl. destruct S1 as (_ & _ & S3 & _). exact (S3 p P LP).
              ** destruct S1 as (_ & _ & S3). specialize (S3 p P). lia.
           ++ intros e Ee. subst st1. cbn [vs_data vs_entry] in *. destruct found as [d|].
              ** unfold upd in Ee |- *. rewrite Z.eqb_refl in *. destruct S1 as ((e' & E' & S2) & _). congruence.
              ** rewrite (proj2 (F b (or_introl eq_refl))) in Ee. discriminate.
        -- intro X. rewrite LT, (L1 X). apply in_or_app. right. left. reflexivity.
    + intros q Q. assert (NQ : q <> b) by (intros ->; tauto). destruct (D1 q NQ) as (Dq & Eq). cbn [vs_data vs_entry].
      unfold upd. destruct (Z.eqb_spec q b); [contradiction|]. rewrite Dq, Eq. exact (F q (or_intror Q)).
Qed.

Lemma join_again_stack cur data e ps : join_again strict g an fuel cur data e ps = CGood tt ->
  forall p, In p ps -> vd_stack (data p) = vd_stack e.
Proof.
  induction ps as [|q ps IH]; intros H p P; [destruct P|]. cbn [join_again] in H. apply cbind_good in H. destruct H as (f & V & H).
  destruct P as [<- |P]; [|exact (IH H p P)]. unfold verify_join in V. destruct (Z.eqb_spec (vd_stack e) (vd_stack (data q))) as [E|E]; [congruence|discriminate].
Qed.

Lemma verify_later_stack cur st bs : verify_later strict g an fuel cur st bs = CGood tt ->
  forall b, In b bs -> preds b <> [] -> exists e, vs_entry st b = Some e /\ forall p, In p (preds b) -> vd_stack (vs_data st p) = vd_stack e.
Proof.
  induction bs as [|b bs IH]; intros H q Q N; [destruct Q|]. cbn [verify_later] in H. apply cbind_good in H. destruct H as ([] & V & H).
  destruct Q as [<- |Q]; [|exact (IH H q Q N)]. destruct (preds b) as [|p ps] eqn:P; [contradiction|].
  destruct (vs_entry st b) as [e|]; [|discriminate]. exists e. split; [reflexivity|]. exact (join_again_stack _ _ _ _ V).
Qed.

(* The block [b] is entered with [d] on the stack whichever way it is reached, and is accepted as such. *)
Lemma verify_graph_blocks mx0 mx : 0 <= mx0 -> verify_graph strict env g an args sizes fuel mx0 = CGood mx ->
  exists data : Z -> vdata, forall b, In b (an_rpo an) -> exists x0 x1,
    verify_insns env args sizes fuel (end_of g b) None b x0 = CGood x1 /\ depth_ok (fst x0) (snd x0) /\
    fst x1 = data b /\ 4 * snd x1 <= mx /\ (preds b = [] -> fst x0 = vd0) /\
    (forall p, In p (preds b) -> vd_stack (data p) = vd_stack (fst x0)).
Proof.
  intros M0 H. unfold verify_graph in H. apply cbind_good in H. destruct H as (st & B & H). apply cbind_good in H. destruct H as ([] & L & H).
  assert (mx = vs_max st * 4) as -> by (destruct (INT_MAX4 <? vs_max st); congruence).
  exists (vs_data st). intros b Ib.
  assert (G : gone st b).
  { refine (verify_blocks_gone (an_rpo an) [] _ st eq_refl _ _ _ B b Ib); [exact M0|intros q []|intros q _; split; reflexivity]. }
  destruct G as [(x0 & x1 & R1 & R2 & R3 & R4 & R5 & R6 & R7) GL].
  exists x0, x1. split; [exact R1|]. split; [exact R2|]. split; [congruence|]. split; [lia|]. split; [exact R5|].
  intros p P. destruct (Z.lt_ge_cases (id p) (id b)) as [LP|LP]; [exact (R6 p P LP)|].
  assert (IL : In b (vs_later st)) by (apply GL; exists p; tauto).
  destruct (verify_later_stack _ _ _ L b IL ltac:(intro N; rewrite N in P; destruct P)) as (e & E1 & E2).
  rewrite (E2 p P). exact (R7 e E1).
Qed.
End Loop.

(* --- The whole method --- *)
Section Depth.
Variable strict : bool.
Variable rounds fuel : nat.
Variable env : venv.
Variable m : Z.
Variable pr : pre.
Variable g : graph.
Variable an : analysis.
Variable args : Z.
Variable sizes : list Z.
Variable mx0 mx : Z.
Notation code := (v_code env).
Hypothesis CO : code_ok code.
Hypothesis M0 : 0 <= m.
Hypothesis CK : counts_ok code m.
Hypothesis BU : build strict rounds fuel code m = CGood (pr, g, an).
Hypothesis X0 : 0 <= mx0.
Hypothesis VG : verify_graph strict env g an args sizes fuel mx0 = CGood mx.
Notation insns := (pr_insns pr).
Notation targets := (pr_targets pr).
Notation nxt := (fun c => c + insn_size code c).
Notation blocks := (m :: g_known g).
Notation span := (span code m targets).
Notation joins := (joins targets).
Notation step_of prev c x y := (exists i, Interp_Model.decode code c = Some i /\ verify_op env args sizes prev i x = CGood y).

(* The verifier's pass through the block [b] from the data [x0]. *)
Inductive brun (b : Z) (x0 : vdata * Z) : option Z -> Z -> vdata * Z -> Prop :=
| brun_0 : brun b x0 (if b =? m then Some m else None) (first_of m b) x0
| brun_S prev c x y : brun b x0 prev c x -> ~ joins b c -> is_control (cell_at code c) = false ->
    step_of prev c x y -> brun b x0 (Some c) (nxt c) y.

Lemma brun_span b x0 prev c x : brun b x0 prev c x -> span b c.
Proof. induction 1 as [|prev c x y B IH NJ NC S]; [apply span_first|apply span_next; assumption]. Qed.

Lemma brun_det b x0 prev c x : In b blocks -> brun b x0 prev c x -> forall prev' x', brun b x0 prev' c x' -> prev' = prev /\ x' = x.
Proof.
  intros Bb B. induction B as [|prev c x y B IH NJ NC (i & D & V)]; intros prev' x' B'.
  - remember (first_of m b) as c eqn:Ec. destruct B' as [|p c x y B' NJ NC _]; [split; reflexivity|exfalso].
    pose proof (span_ge _ _ _ _ m pr g an CO CK BU b c Bb (brun_span _ _ _ _ _ B')).
    pose proof (insn_pos _ _ _ _ m pr g an CO CK BU c (span_insn _ _ _ _ m pr g an CO BU b c Bb (brun_span _ _ _ _ _ B'))). lia.
  - remember (nxt c) as c2 eqn:Ec. destruct B' as [|p c' z y' B' NJ' NC' (i' & D' & V')].
    + exfalso. pose proof (span_ge _ _ _ _ m pr g an CO CK BU b c Bb (brun_span _ _ _ _ _ B)).
      pose proof (insn_pos _ _ _ _ m pr g an CO CK BU c (span_insn _ _ _ _ m pr g an CO BU b c Bb (brun_span _ _ _ _ _ B))). lia.
    + assert (c' = c).
      { apply (nxt_inj _ _ _ _ m pr g an CO CK BU); [exact (span_insn _ _ _ _ m pr g an CO BU b c' Bb (brun_span _ _ _ _ _ B'))|
          exact (span_insn _ _ _ _ m pr g an CO BU b c Bb (brun_span _ _ _ _ _ B))|exact Ec]. }
      subst c'. destruct (IH _ _ B') as (-> & ->). split; [reflexivity|congruence].
Qed.

Lemma end_of_block b e : In b blocks -> In (b, e) (g_ends g) -> end_of g b = e.
Proof.
  intros Bb H. destruct (build_parts _ _ _ _ m pr g an CO BU) as (_ & _ & _ & _ & BO & _). pose proof (bo_one_end _ _ _ _ BO) as N.
  unfold end_of. clear - H N. induction (g_ends g) as [|(b' & e') l IH]; [destruct H|]. cbn [find fst].
  cbn [map fst] in N. inversion N as [|? ? NI N']; subst. destruct (Z.eqb_spec b' b) as [E|E].
  - destruct H as [H|H]; [congruence|]. destruct NI. rewrite E. apply in_map_iff. exists (b, e). split; [reflexivity|exact H].
  - destruct H as [H|H]; [congruence|]. exact (IH H N').
Qed.

(* The block's last cell. *)
Lemma block_last b : In b blocks -> exists t, span b t /\
  (joins b t /\ end_of g b = t /\ g_succ g b = [t] \/
   ~ joins b t /\ is_control (cell_at code t) = true /\ t < end_of g b <= nxt t /\
   (cell_at code t <> OP_RETN -> end_of g b = nxt t) /\ block_end code m targets b (end_of g b) (g_succ g b)).
Proof.
  intro Bb. destruct (build_parts _ _ _ _ m pr g an CO BU) as (_ & _ & _ & _ & BO & _).
  destruct (bo_end _ _ _ _ BO b Bb) as (e & BE & IE). rewrite (end_of_block b e Bb IE).
  pose proof BE as BE'. remember (g_succ g b) as ss eqn:ES.
  destruct BE as [c S J|c S NJ E|c S NJ E|c S NJ J NE|c S NJ E T]; exists c; (split; [exact S|]).
  - left. split; [exact J|]. split; reflexivity.
  - right. split; [exact NJ|]. assert (SZ : insn_size code c = 1) by (unfold insn_size; rewrite E; reflexivity). rewrite E, SZ.
    split; [reflexivity|]. split; [lia|]. split; [lia|exact BE'].
  - right. split; [exact NJ|]. assert (SZ : insn_size code c = 2) by (unfold insn_size; rewrite E; reflexivity). rewrite E, SZ.
    split; [reflexivity|]. split; [lia|]. split; [lia|exact BE'].
  - right. split; [exact NJ|]. pose proof (size_jump code c J) as SZ. rewrite SZ.
    split; [unfold is_control; rewrite J; reflexivity|]. split; [lia|]. split; [lia|exact BE'].
  - right. split; [exact NJ|]. assert (SZ : insn_size code c = 2) by (unfold insn_size; rewrite E; reflexivity). rewrite E, SZ.
    split; [reflexivity|]. split; [lia|]. split; [lia|exact BE'].
Qed.

Lemma before_end b c : In b blocks -> span b c -> ~ joins b c -> c < end_of g b.
Proof.
  intros Bb S NJ. destruct (block_last b Bb) as (t & St & [(J & E & _)|(NJt & C & L & _)]).
  - pose proof (span_le _ _ _ _ m pr g an CO CK BU b t c Bb St (or_introl J) S).
    assert (c <> t) by (intros ->; contradiction). lia.
  - pose proof (span_le _ _ _ _ m pr g an CO CK BU b t c Bb St (or_intror C) S). lia.
Qed.

(* One step of the pass through a block. *)
Lemma insns_step f e prev c x xf : verify_insns env args sizes f e prev c x = CGood xf -> c < e ->
  exists f' y, step_of prev c x y /\ verify_insns env args sizes f' e (Some c) (nxt c) y = CGood xf.
Proof.
  intros H L. destruct f as [|f]; [discriminate|]. cbn [verify_insns] in H. destruct (e <=? c) eqn:E; [lia|].
  destruct (_ || _); [discriminate|]. destruct (Interp_Model.decode code c) as [i|] eqn:D; [|discriminate].
  destruct (code_cells code <? c + vreads i); [discriminate|]. apply cbind_good in H. destruct H as (y & V & H).
  exists f, y. split; [exists i; split; [reflexivity|exact V]|]. cbv beta.
  rewrite <- (vsize_insn code c i D (op_not_halt _ _ _ _ _ _ _ V)). exact H.
Qed.

Lemma insns_end f e prev c x xf : verify_insns env args sizes f e prev c x = CGood xf -> e <= c -> xf = x.
Proof. intros H L. destruct f as [|f]; [discriminate|]. cbn [verify_insns] in H. destruct (e <=? c) eqn:E; [congruence|lia]. Qed.

Lemma run_block b x0 xf f : In b blocks -> verify_insns env args sizes f (end_of g b) None b x0 = CGood xf ->
  forall c, span b c -> exists prev x f', brun b x0 prev c x /\ verify_insns env args sizes f' (end_of g b) prev c x = CGood xf.
Proof.
  intros Bb V c S. induction S as [|c S IH NJ NC].
  - destruct (Z.eq_dec b m) as [E|N].
    + subst b. pose proof (before_end m (first_of m m) Bb (span_first _ _ _ _)) as BE.
      unfold first_of in *. rewrite Z.eqb_refl in *.
      destruct (build_parts _ _ _ _ m pr g an CO BU) as (_ & _ & _ & _ & BO & _ & PC & _).
      assert (LM : m < end_of g m).
      { destruct (block_last m Bb) as (t & St & T). pose proof (span_ge _ _ _ _ m pr g an CO CK BU m t Bb St) as G.
        unfold first_of in G. rewrite Z.eqb_refl in G. destruct T as [(_ & E & _)|(_ & _ & L & _)]; lia. }
      destruct (insns_step _ _ _ _ _ _ V LM) as (f' & y & (i & D & VO) & V').
      assert (i = PROC) as ->. { unfold Interp_Model.decode in D. rewrite PC in D. cbn in D. congruence. }
      assert (y = x0) as ->. { destruct x0. cbn [verify_op] in VO. congruence. }
      assert (SZ : insn_size code m = 1) by (unfold insn_size; rewrite PC; reflexivity). cbv beta in V'. rewrite SZ in V'.
      exists (Some m), x0, f'. split; [|exact V'].
      pose proof (brun_0 m x0) as B0. unfold first_of in B0. rewrite Z.eqb_refl in B0. exact B0.
    + exists None, x0, f. pose proof (brun_0 b x0) as B0. unfold first_of in *. destruct (Z.eqb_spec b m); [contradiction|]. split; [exact B0|exact V].
  - destruct IH as (prev & x & f' & B & V').
    destruct (insns_step _ _ _ _ _ _ V' (before_end b c Bb S NJ)) as (f2 & y & ST & V2).
    exists (Some c), y, f2. split; [|exact V2]. exact (brun_S b x0 prev c x y B NJ NC ST).
Qed.

Lemma in_rpo b : In b blocks -> In b (an_rpo an).
Proof.
  intro Bb. destruct (build_parts _ _ _ _ m pr g an CO BU) as (_ & _ & _ & _ & BO & A & _).
  apply (as_all _ _ _ A). exact (bo_reach _ _ _ _ BO b Bb).
Qed.

Lemma pred_rpo b p : In b (an_rpo an) -> In p (g_pred g b) -> In p (an_rpo an).
Proof.
  intros _ P. apply in_g_pred in P. destruct (build_parts _ _ _ _ m pr g an CO BU) as (_ & _ & _ & _ & BO & _).
  apply in_rpo. apply in_g_succ in P. exact (proj1 (bo_edge _ _ _ _ BO _ _ P)).
Qed.

Lemma finite_choice {A} (P : Z -> A -> Prop) (a0 : A) l : (forall b, In b l -> exists x, P b x) -> exists f, forall b, In b l -> P b (f b).
Proof.
  induction l as [|b l IH]; intro H; [exists (fun _ => a0); intros b []|].
  destruct IH as (f & F); [intros c C; apply H; right; exact C|]. destruct (H b (or_introl eq_refl)) as (x & X).
  exists (fun c => if Z.eq_dec c b then x else f c). intros c C. destruct (Z.eq_dec c b) as [->|N]; [exact X|].
  destruct C as [C|C]; [congruence|exact (F c C)].
Qed.

Definition block_data (start last : Z -> vdata * Z) : Prop := forall b, In b blocks ->
  (exists f, verify_insns env args sizes f (end_of g b) None b (start b) = CGood (last b)) /\
  depth_ok (fst (start b)) (snd (start b)) /\ 4 * snd (last b) <= mx /\ (b = m -> fst (start b) = vd0) /\
  (forall p, In b (g_succ g p) -> vd_stack (fst (last p)) = vd_stack (fst (start b))).

Lemma blocks_data : exists start last, block_data start last.
Proof.
  destruct (build_parts _ _ _ _ m pr g an CO BU) as (_ & _ & _ & _ & BO & A & _).
  destruct (verify_graph_blocks strict env g an args sizes fuel CO (as_once _ _ _ A) pred_rpo mx0 mx X0 VG) as (data & H).
  destruct (finite_choice (fun b x => verify_insns env args sizes fuel (end_of g b) None b (fst x) = CGood (snd x) /\
    depth_ok (fst (fst x)) (snd (fst x)) /\ fst (snd x) = data b /\ 4 * snd (snd x) <= mx /\ (g_pred g b = [] -> fst (fst x) = vd0) /\
    (forall p, In p (g_pred g b) -> vd_stack (data p) = vd_stack (fst (fst x)))) ((vd0, 0), (vd0, 0)) (an_rpo an)) as (f & F).
  { intros b B. destruct (H b B) as (x0 & x1 & R). exists (x0, x1). exact R. }
  exists (fun b => fst (f b)), (fun b => snd (f b)). intros b B. destruct (F b (in_rpo b B)) as (R1 & R2 & R3 & R4 & R5 & R6).
  split; [exists fuel; exact R1|]. split; [exact R2|]. split; [exact R4|]. split.
  - intros ->. apply R5. destruct (g_pred g m) as [|p ps] eqn:P; [reflexivity|exfalso].
    assert (Q : In p (g_pred g m)) by (rewrite P; left; reflexivity). apply in_g_pred, in_g_succ in Q.
    apply (entry_not_known _ _ _ _ m pr g an CO BU). exact (proj2 (bo_edge _ _ _ _ BO _ _ Q)).
  - intros p P. destruct (bo_edge _ _ _ _ BO _ _ P) as (Bp & _). destruct (F p (in_rpo p Bp)) as (_ & _ & R3' & _).
    rewrite R3'. apply R6. apply in_g_pred, in_g_succ. exact P.
Qed.

Section Data.
Variable start last : Z -> vdata * Z.
Hypothesis BD : block_data start last.

(* Execution is at [pc] with the depth the verifier found there. *)
Definition state_at (prev : option Z) (pc d : Z) : Prop := exists b prev_v x, In b blocks /\ brun b (start b) prev_v pc x /\
  ~ joins b pc /\ vd_stack (fst x) = d /\ (push_constant env prev_v = None \/ prev_v = prev).

Lemma enter b c prev : In b blocks -> In c (g_succ g b) -> state_at prev c (vd_stack (fst (last b))).
Proof.
  intros Bb S. destruct (build_parts _ _ _ _ m pr g an CO BU) as (_ & _ & _ & _ & BO & _).
  destruct (bo_edge _ _ _ _ BO _ _ S) as (_ & Kc). destruct (BD c (or_intror Kc)) as (_ & _ & _ & _ & EQ).
  assert (NM : c <> m) by (intros ->; exact (entry_not_known _ _ _ _ m pr g an CO BU Kc)).
  exists c, None, (start c). split; [right; exact Kc|]. split.
  - pose proof (brun_0 c (start c)) as B0. unfold first_of in B0. destruct (Z.eqb_spec c m); [contradiction|]. exact B0.
  - split; [intros (_ & N); contradiction|]. split; [symmetry; exact (EQ b S)|left; reflexivity].
Qed.

Lemma run_at b prev c x : In b blocks -> brun b (start b) prev c x ->
  exists f, verify_insns env args sizes f (end_of g b) prev c x = CGood (last b).
Proof.
  intros Bb B. destruct (BD b Bb) as ((f & V) & _).
  destruct (run_block b _ _ _ Bb V c (brun_span _ _ _ _ _ B)) as (p' & x' & f' & B' & V').
  destruct (brun_det _ _ _ _ _ Bb B _ _ B') as (-> & ->). exists f'. exact V'.
Qed.

Lemma settle b prev_v c x prev : In b blocks -> brun b (start b) prev_v c x ->
  push_constant env prev_v = None \/ prev_v = prev -> state_at prev c (vd_stack (fst x)).
Proof.
  intros Bb B PV. destruct (in_dec Z.eq_dec c targets) as [IT|NT].
  - destruct (Z.eq_dec c b) as [E|NE].
    + exists b, prev_v, x. split; [exact Bb|]. split; [exact B|]. split; [intros (_ & N); contradiction|]. split; [reflexivity|exact PV].
    + assert (J : joins b c) by (split; assumption). pose proof (brun_span _ _ _ _ _ B) as Sc.
      destruct (block_last b Bb) as (t & St & T).
      assert (LT : t <= c) by exact (span_le _ _ _ _ m pr g an CO CK BU b c t Bb Sc (or_introl J) St).
      assert (LC : c <= t) by (apply (span_le _ _ _ _ m pr g an CO CK BU b t c Bb St); [destruct T as [T|T]; [left|right]; apply T|exact Sc]).
      assert (t = c) by lia. subst t. destruct T as [(_ & E & SU)|(NJ & _)]; [|contradiction].
      destruct (run_at b _ _ _ Bb B) as (f & V). rewrite <- (insns_end _ _ _ _ _ _ V ltac:(lia)).
      apply enter; [exact Bb|]. rewrite SU. left. reflexivity.
  - exists b, prev_v, x. split; [exact Bb|]. split; [exact B|]. split; [intros (T & _); contradiction|]. split; [reflexivity|exact PV].
Qed.

Lemma brun_depth b prev c x : In b blocks -> brun b (start b) prev c x -> depth_ok (fst x) (snd x).
Proof.
  intros Bb B. induction B as [|prev c x y B IH NJ NC (i & D & V)]; [apply (BD b Bb)|].
  destruct x as (d & mx1), y as (d' & mx2). exact (proj1 (op_moves _ _ _ _ _ _ _ _ _ _ CO D IH V)).
Qed.

Lemma follows_mono ms : forall d a b, a <= b -> follows d ms a -> follows d ms b.
Proof. induction ms as [|x ms IH]; intros d a b L (A & B & C); cbn [follows]; (split; [exact A|split; [lia|]]); [exact I|exact (IH _ _ _ L C)]. Qed.

Lemma moves_prev prev_v prev i x y : verify_op env args sizes prev_v i x = CGood y ->
  push_constant env prev_v = None \/ prev_v = prev -> moves code prev_v i = moves code prev i.
Proof.
  intros V [N| ->]; [|reflexivity]. destruct i; try reflexivity. destruct x. cbn [verify_op] in V. rewrite N in V. discriminate.
Qed.

(* One instruction, from wherever it is reached. *)
Lemma state_step prev pc d : state_at prev pc d -> exists b prev_v x y i ms, In b blocks /\ brun b (start b) prev_v pc x /\ ~ joins b pc /\
  Interp_Model.decode code pc = Some i /\ verify_op env args sizes prev_v i x = CGood y /\ moves code prev i = Some ms /\
  follows d ms mx /\ vd_stack (fst y) = d + total ms /\
  exists f, verify_insns env args sizes f (end_of g b) (Some pc) (nxt pc) y = CGood (last b).
Proof.
  intros (b & pv & x & Bb & B & NJ & E & PV). destruct (run_at b _ _ _ Bb B) as (f & V).
  destruct (insns_step _ _ _ _ _ _ V (before_end b pc Bb (brun_span _ _ _ _ _ B) NJ)) as (f' & y & (i & D & VO) & V').
  destruct x as (dx & mx1), y as (dy & mx2).
  pose proof (brun_depth b _ _ _ Bb B) as DO. cbn [fst snd] in DO, E.
  destruct (op_moves _ _ _ _ _ _ _ _ _ _ CO D DO VO) as (DO' & L & ms & MV & FO & ST).
  exists b, pv, (dx, mx1), (dy, mx2), i, ms. split; [exact Bb|]. split; [exact B|]. split; [exact NJ|]. split; [exact D|]. split; [exact VO|].
  split; [rewrite <- (moves_prev _ _ _ _ _ VO PV); exact MV|]. subst d. split.
  - destruct (verify_insns_depth _ _ _ _ _ CO _ _ _ _ V' DO') as (_ & L2). cbn [snd] in L2. destruct (BD b Bb) as (_ & _ & L3 & _).
    apply (follows_mono _ _ (4 * mx2)); [lia|exact FO].
  - split; [exact ST|]. exists f'. exact V'.
Qed.

(* The successors of a block ending in a jump. *)
Lemma control_last b c : In b blocks -> span b c -> ~ joins b c -> is_control (cell_at code c) = true ->
  c < end_of g b <= nxt c /\ block_end code m targets b (end_of g b) (g_succ g b) /\
  match Interp_Model.decode code c with
  | Some (JUMP o) => g_succ g b = [o / 4]
  | Some (JCMP _ o) => g_succ g b = [nxt c; o / 4]
  | Some (SWITCH o) => g_succ g b = map (fun o => o / 4) (table_offsets code (o / 4))
  | _ => True
  end.
Proof.
  intros Bb S NJ C. destruct (block_last b Bb) as (t & St & T).
  assert (LT : t <= c) by exact (span_le _ _ _ _ m pr g an CO CK BU b c t Bb S (or_intror C) St).
  assert (LC : c <= t) by (apply (span_le _ _ _ _ m pr g an CO CK BU b t c Bb St); [destruct T as [T|T]; [left|right]; apply T|exact S]).
  assert (t = c) by lia. subst t. destruct T as [(J & _)|(_ & _ & L & _ & BE)]; [contradiction|].
  split; [exact L|]. split; [exact BE|].
  assert (SAME : forall c', span b c' -> ~ joins b c' -> is_control (cell_at code c') = true -> c' = c).
  { intros c' S' NJ' C'. pose proof (span_le _ _ _ _ m pr g an CO CK BU b c c' Bb S (or_intror C) S').
    pose proof (span_le _ _ _ _ m pr g an CO CK BU b c' c Bb S' (or_intror C') S). lia. }
  remember (g_succ g b) as ss eqn:ES. remember (end_of g b) as e eqn:EE.
  destruct BE as [c' S' J|c' S' NJ' E|c' S' NJ' E|c' S' NJ' J NE|c' S' NJ' E TB].
  - exfalso. pose proof (span_le _ _ _ _ m pr g an CO CK BU b c' c Bb S' (or_introl J) S).
    pose proof (span_le _ _ _ _ m pr g an CO CK BU b c c' Bb S (or_intror C) S'). assert (c <> c') by (intros ->; contradiction). lia.
  - assert (c' = c) by (apply SAME; [exact S'|exact NJ'|rewrite E; reflexivity]). subst c'. apply decode_retn in E. rewrite E. exact I.
  - assert (c' = c) by (apply SAME; [exact S'|exact NJ'|rewrite E; reflexivity]). subst c'.
    destruct (decode_of_jump code c) as [(_ & D)|(x & D)]; [rewrite E; reflexivity|rewrite D; reflexivity|].
    apply decode_jcmp in D. destruct D as (_ & D & _). contradiction.
  - assert (c' = c) by (apply SAME; [exact S'|exact NJ'|unfold is_control; rewrite J; reflexivity]). subst c'.
    destruct (decode_of_jump code c J) as [(D & _)|(x & D)]; [contradiction|]. rewrite D. cbv beta. rewrite (size_jump code c J). reflexivity.
  - assert (c' = c) by (apply SAME; [exact S'|exact NJ'|rewrite E; reflexivity]). subst c'.
    destruct (Interp_Model.decode code c) as [i|] eqn:D; [|exact I]. destruct i; try exact I.
    + apply decode_jump in D. destruct D as (D & _). rewrite E in D. discriminate.
    + apply decode_jcmp in D. destruct D as (D & _). rewrite E in D. discriminate.
    + apply decode_switch in D. destruct D as (_ & ->). reflexivity.
Qed.

Lemma case_in o t : (o = cell_at code (t + 2) \/ exists k, 0 <= k < cell_at code (t + 1) /\ o = cell_at code (t + 4 + 2 * k)) -> In o (table_offsets code t).
Proof.
  unfold table_offsets. intros [-> |(k & K & ->)]; [left; reflexivity|right].
  assert (G : forall n pos j, 0 <= j < Z.of_nat n -> In (cell_at code (pos + 1 + 2 * j)) (case_offsets code n pos)).
  { clear. induction n as [|n IH]; intros pos j J; [lia|]. cbn [case_offsets]. destruct (Z.eq_dec j 0) as [->|N].
    - left. f_equal. lia.
    - right. replace (pos + 1 + 2 * j) with (pos + 2 + 1 + 2 * (j - 1)) by lia. apply IH. lia. }
  replace (t + 4 + 2 * k) with (t + 3 + 1 + 2 * k) by lia. apply G. lia.
Qed.

Lemma at_depth_state prev pc d : at_depth code m prev pc d -> state_at prev pc d.
Proof.
  induction 1 as [|prev pc d i ms A IH D MV F|prev pc d i ms o A IH D MV F].
  - destruct (BD m (or_introl eq_refl)) as (_ & _ & _ & S0 & _).
    assert (E : vd_stack (fst (start m)) = 0) by (rewrite (S0 eq_refl); reflexivity). rewrite <- E.
    pose proof (brun_0 m (start m)) as B0. unfold first_of in B0. rewrite Z.eqb_refl in B0.
    apply (settle m (Some m)); [left; reflexivity|exact B0|]. left.
    destruct (build_parts _ _ _ _ m pr g an CO BU) as (_ & _ & _ & _ & _ & _ & PC & _).
    unfold push_constant, Interp_Model.decode. rewrite PC. reflexivity.
  - destruct (state_step _ _ _ IH) as (b & pv & x & y & i' & ms' & Bb & B & NJ & D' & V & MV' & FO & ST & f & VR).
    assert (i' = i) by congruence. subst i'. assert (ms' = ms) by congruence. subst ms'. rewrite <- ST.
    destruct (is_control (cell_at code pc)) eqn:C.
    + destruct (control_last b pc Bb (brun_span _ _ _ _ _ B) NJ C) as (L & _ & SU). rewrite D in SU.
      unfold falls_through in F. rewrite D in F.
      assert (J : exists k o, i = JCMP k o).
      { unfold is_control in C. destruct (is_jump (cell_at code pc)) eqn:J.
        - destruct (decode_of_jump code pc J) as [(_ & Q)|(k & Q)]; [rewrite Q in D; assert (i = JUMP (cell_at code (pc + 1))) as -> by congruence; destruct F|].
          exists k, (cell_at code (pc + 1)). congruence.
        - exfalso. destruct (Z.eqb_spec (cell_at code pc) OP_RETN) as [E|E].
          + apply decode_retn in E. rewrite E in D. assert (i = RETN) as -> by congruence. destruct F.
          + cbn [orb] in C. assert (E2 : cell_at code pc = OP_SWITCH) by lia. unfold Interp_Model.decode in D. rewrite E2 in D.
            cbn in D. match type of D with Some ?z = _ => assert (i = z) as -> by congruence end. destruct F. }
      destruct J as (k & o & ->). rewrite <- (insns_end _ _ _ _ _ _ VR ltac:(lia)).
      apply (enter b); [exact Bb|]. rewrite SU. left. reflexivity.
    + apply (settle b (Some pc)); [exact Bb| |right; reflexivity].
      apply (brun_S b (start b) pv pc x y B NJ C). exists i. split; assumption.
  - destruct (state_step _ _ _ IH) as (b & pv & x & y & i' & ms' & Bb & B & NJ & D' & V & MV' & FO & ST & f & VR).
    assert (i' = i) by congruence. subst i'. assert (ms' = ms) by congruence. subst ms'. rewrite <- ST.
    assert (C : is_control (cell_at code pc) = true).
    { destruct (is_control (cell_at code pc)) eqn:C; [reflexivity|]. pose proof (not_control_decode code pc C) as N.
      unfold jumps_to in F. destruct (Interp_Model.decode code pc) as [j|]; [|destruct F]. destruct j; try destruct F; destruct N. }
    destruct (control_last b pc Bb (brun_span _ _ _ _ _ B) NJ C) as (L & _ & SU).
    rewrite <- (insns_end _ _ _ _ _ _ VR ltac:(lia)). apply (enter b); [exact Bb|].
    unfold jumps_to in F. destruct (Interp_Model.decode code pc) as [j|] eqn:DJ; [|destruct F]. destruct j; try (destruct F; fail); rewrite SU.
    + subst o. left. reflexivity.
    + subst o. right. left. reflexivity.
    + apply (in_map (fun o => o / 4)). apply case_in. exact F.
Qed.

Lemma depth_unique prev pc d prev' d' : at_depth code m prev pc d -> at_depth code m prev' pc d' -> d' = d.
Proof.
  intros A A'. destruct (at_depth_state _ _ _ A) as (b & pv & x & Bb & B & NJ & E & _).
  destruct (at_depth_state _ _ _ A') as (b' & pv' & x' & Bb' & B' & NJ' & E' & _).
  assert (b' = b) by exact (belongs_one _ _ _ _ m pr g an CO CK BU b' b pc Bb' Bb (brun_span _ _ _ _ _ B') (brun_span _ _ _ _ _ B) NJ' NJ).
  subst b'. destruct (brun_det _ _ _ _ _ Bb B _ _ B') as (-> & ->). congruence.
Qed.

Lemma depth_moves prev pc d : at_depth code m prev pc d ->
  exists i ms, Interp_Model.decode code pc = Some i /\ moves code prev i = Some ms /\ follows d ms mx.
Proof.
  intro A. destruct (state_step _ _ _ (at_depth_state _ _ _ A)) as (b & pv & x & y & i & ms & _ & _ & _ & D & _ & MV & FO & _).
  exists i, ms. split; [exact D|]. split; assumption.
Qed.
End Data.
End Depth.

(* --- verify --- *)
Lemma local_sizes_pos strict t n : forall o l, local_sizes strict t n o = CGood (Some l) -> Forall (fun s => s = 4 \/ s = 8) l.
Proof.
  induction n as [|n IH]; intros o l H; cbn [local_sizes] in H.
  - assert (l = []) as -> by congruence. constructor.
  - destruct (getb t o) as [b0|]; [|discriminate].
    destruct (if b0 =? kConst then _ else _) as [(b & o1)|]; [|discriminate]. cbv zeta in H.
    assert (S : forall s, (if existsb (Z.eqb b) [kBool; kInt32; kFloat32; kChar8; kAny; kTopFunction; kEnum; kFixedArray; kArray; kEnumStruct; kFunctionPtr; kTypeset]
      then Some 4 else if b =? kInt64 then Some 8 else None) = Some s -> s = 4 \/ s = 8).
    { intros s. destruct (existsb _ _); [intro; left; congruence|]. destruct (b =? kInt64); [intro; right; congruence|discriminate]. }
    destruct (if existsb _ _ then _ else _) as [s|]; [|discriminate]. specialize (S s eq_refl).
    destruct (skip_to strict (fuel_for t) t o1) as [o2|]; [|discriminate].
    apply cbind_good in H. destruct H as (r & R & H). destruct r as [l'|]; [|discriminate]. cbn [option_map] in H.
    assert (l = s :: l') as -> by congruence. constructor; [exact S|exact (IH _ _ R)].
Qed.

Lemma verify_local_sizes strict mt a l : verify_local_slots strict mt = CGood (Some (a, l)) -> Forall (fun s => s = 4 \/ s = 8) l.
Proof.
  unfold verify_local_slots. destruct mt as [(t & r)|]; [|discriminate].
  destruct (ReadFunctionSignatureArgCount t (m_sig r)) as [[ar|] oa|]; try discriminate.
  destruct (m_locals r =? 0); [intro H; assert (l = []) as -> by congruence; constructor|].
  destruct (ReadLocalSlotCount t (m_locals r)) as [[n|] ob|]; try discriminate.
  intro H. apply cbind_good in H. destruct H as (x & X & H). destruct x as [l'|]; [|discriminate]. cbn [option_map] in H.
  assert (l = l') as -> by congruence. exact (local_sizes_pos _ _ _ _ _ X).
Qed.

Lemma sum_pos l : forall a, 0 <= a -> Forall (fun s => s = 4 \/ s = 8) l -> 0 <= fold_left Z.add l a.
Proof. induction l as [|x l IH]; intros a A F; [exact A|]. inversion F; subst. cbn [fold_left]. apply IH; [lia|assumption]. Qed.

Lemma verify_parts strict rounds fuel env o v : verify strict rounds fuel env o = CGood (Some v) ->
  o mod 4 = 0 /\ build strict rounds fuel (v_code env) (o / 4) = CGood (vi_pre v, vi_graph v, vi_an v) /\
  Forall (fun s => s = 4 \/ s = 8) (vi_sizes v) /\ (v_typed env = false -> vi_sizes v = []) /\
  exists args, verify_graph strict env (vi_graph v) (vi_an v) args (vi_sizes v) fuel (fold_left Z.add (vi_sizes v) 0) = CGood (vi_max v).
Proof.
  unfold verify. destruct (Z.eqb_spec (o mod 4) 0) as [E|E]; [|discriminate]. cbn [negb]. intro H.
  apply cbind_good in H. destruct H as (mt & _ & H). apply cbind_good in H. destruct H as (sl & S & H).
  destruct sl as [(args & sizes)|]; [|discriminate].
  apply cbind_good in H. destruct H as (((pr & g) & an) & B & H). apply cbind_good in H. destruct H as (mx & V & H).
  match type of H with CGood (Some ?z) = _ => assert (v = z) as -> by congruence end. cbn [vi_pre vi_graph vi_an vi_sizes vi_max].
  split; [exact E|]. split; [exact B|]. destruct (v_typed env).
  - split; [exact (verify_local_sizes _ _ _ _ S)|]. split; [discriminate|]. exists args. exact V.
  - assert (sizes = []) as -> by congruence. split; [constructor|]. split; [reflexivity|]. exists args. exact V.
Qed.

Lemma verify_depth strict rounds fuel env o v : code_ok (v_code env) -> 0 <= o -> counts_ok (v_code env) (o / 4) ->
  verify strict rounds fuel env o = CGood (Some v) ->
  forall prev pc d, at_depth (v_code env) (o / 4) prev pc d ->
    (forall prev' d', at_depth (v_code env) (o / 4) prev' pc d' -> d' = d) /\
    exists i ms, Interp_Model.decode (v_code env) pc = Some i /\ moves (v_code env) prev i = Some ms /\ follows d ms (vi_max v).
Proof.
  intros CO O0 CK V prev pc d A. apply verify_parts in V. destruct V as (_ & B & F & _ & args & G).
  pose proof (sum_pos _ 0 ltac:(lia) F) as X0.
  destruct (blocks_data strict rounds fuel env (o / 4) _ _ _ args _ _ _ CO B X0 G) as (start & last & BD).
  split.
  - intros prev' d' A'. exact (depth_unique strict rounds fuel env (o / 4) _ _ _ args _ _ CO CK B start last BD _ _ _ _ _ A A').
  - exact (depth_moves strict rounds fuel env (o / 4) _ _ _ args _ _ CO CK B start last BD _ _ _ A).
Qed.
