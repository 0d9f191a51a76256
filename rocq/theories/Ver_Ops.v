(* Operands of verified instructions. *)
From Coq Require Import ZifyBool.
From Verif Require Import Base Base_Proofs Rtti_Model Rt_Model Array_Model Interp_Model Cfg_Model Cfg_Spec Cfg_Proofs Dom_Model Dom_Spec Ver_Model Ver_Spec Ver_Proofs Ver_Cases.
Ltac Zify.zify_post_hook ::= Z.div_mod_to_equations.

Lemma check_ok b e x y : check b e x = CGood y -> b = true.
Proof. unfold check. destruct b; [reflexivity|discriminate]. Qed.

Lemma check_is b e x y : check b e x = CGood y -> x = y.
Proof. unfold check. destruct b; [congruence|discriminate]. Qed.

Lemma offset_ok env args sizes d o w : is_i32 o ->
  stack_offset env args sizes d o w = true -> slot_ok env args sizes (vd_stack d) (o, w).
Proof.
  intros I. unfold stack_offset, slot_ok. destruct (v_typed env).
  - destruct (o <? 0) eqn:E.
    + intro H. unfold u32, two32 in H. unfold is_i32, two31 in *. rewrite (Z.mod_small (- o - 1)) in H by lia. lia.
    + intro H. apply andb_true_iff in H. destruct H as (H1 & H2). split; [lia|]. destruct (Z.eqb_spec w 0); [left; assumption|right].
      cbn [orb] in H2. lia.
  - destruct (0 <=? o) eqn:E; destruct (o <? 0) eqn:E2; lia.
Qed.

Lemma dat_ok env a : dat_offset env a = true -> 0 <= a < v_dat env.
Proof. unfold dat_offset. lia. Qed.

Lemma init_ok env a iv copy fill v : is_i32 a -> initarray_ok env a iv copy fill v = true ->
  0 <= iv /\ 0 <= copy /\ 0 <= fill /\ a mod 4 = 0 /\ (0 < iv + copy -> 0 <= a /\ a + 4 * (iv + copy) <= v_dat env).
Proof.
  intros I. unfold initarray_ok, kMaxCells. destruct (_ || _) eqn:E; [discriminate|]. cbv zeta.
  repeat (apply orb_false_iff in E; destruct E as (E & ?)).
  destruct ((wrap32 (a + iv * 4) <? a) || _ || _) eqn:E2; [discriminate|]. repeat (apply orb_false_iff in E2; destruct E2 as (E2 & ?)).
  intro Q. split; [lia|]. split; [lia|]. split; [lia|]. split; [lia|]. intro P.
  destruct ((iv =? 0) && (copy =? 0)) eqn:E3; [lia|]. apply andb_true_iff in Q. destruct Q as (Q1 & Q2). apply dat_ok in Q1, Q2.
  split; [lia|].
  assert (W1 : wrap32 (a + iv * 4) = a + iv * 4).
  { unfold wrap32, is_i32, two31, two32 in *. destruct ((a + iv * 4 + 2147483648) / 4294967296) eqn:Dv; lia. }
  rewrite W1 in *.
  assert (W2 : wrap32 (a + iv * 4 + copy * 4) = a + iv * 4 + copy * 4).
  { unfold wrap32 in *. unfold is_i32, two31, two32 in *. lia. }
  assert (W3 : wrap32 (a + (iv + copy) * 4) = a + (iv + copy) * 4) by (replace (a + (iv + copy) * 4) with (a + iv * 4 + copy * 4) by lia; exact W2).
  rewrite W3 in Q2. rewrite wrap32_id in Q2; [lia|].
  assert (R : is_i32 (a + (iv + copy) * 4)) by (rewrite <- W3; apply wrap32_range). unfold is_i32, two31 in *. lia.
Qed.

(* The operands that name slots and addresses are 32-bit values. *)
Lemma decode_named code pc i : Forall is_i32 code -> Interp_Model.decode code pc = Some i ->
  Forall (fun s => is_i32 (fst s)) (slots_named i) /\
  match i with
  | STACK v | GENARRAY v _ => is_i32 v
  | SYSREQ_N n k => is_i32 n /\ is_i32 k
  | INITARRAY _ a _ _ _ _ => is_i32 a
  | _ => True
  end.
Proof.
  intros C H. pose proof (fun k => cell_at_i32 code k C) as R.
  unfold Interp_Model.decode in H. cbv zeta in H.
  destruct (cell_at code pc) as [|q|q]; try discriminate H.
  do 8 (try (destruct q as [q|q|]; try discriminate H)).
  all: match type of H with Some ?x = _ => assert (i = x) as -> by congruence end; clear H.
  all: cbn [slots_named map fst]; split; [|first [exact I|apply R|split; apply R]].
  all: repeat (apply Forall_cons; [apply R|]); apply Forall_nil.
Qed.

Lemma pop_le n x y : pop_stack n x = CGood y -> 0 <= n < two32 -> 0 <= vd_stack (fst x) -> n <= vd_stack (fst x).
Proof.
  destruct x as (d & mx). unfold pop_stack. intros H N D. rewrite (u32_id n) in H by (unfold is_u32; exact N).
  cbn [fst] in *. destruct (_ <? _) eqn:E in H; [discriminate|]. unfold u32 in E. lia.
Qed.

Lemma slots_ok env args sizes d l w : Forall (fun s => is_i32 (fst s)) (map (fun o => (o, w)) l) ->
  forallb (fun o => stack_offset env args sizes d o w) l = true -> Forall (slot_ok env args sizes (vd_stack d)) (map (fun o => (o, w)) l).
Proof.
  induction l as [|o l IH]; intros F H; cbn [map] in *; [constructor|]. cbn [forallb] in H. apply andb_true_iff in H. destruct H as (A & B).
  inversion F as [|? ? F1 F2]; subst. constructor; [exact (offset_ok _ _ _ _ _ _ F1 A)|exact (IH F2 B)].
Qed.

Lemma op_operands env args sizes prev pc i x y : code_ok (v_code env) -> Interp_Model.decode (v_code env) pc = Some i ->
  0 <= vd_stack (fst x) -> verify_op env args sizes prev i x = CGood y -> operands_ok env args sizes (vd_stack (fst x)) i.
Proof.
  intros (CI & CL) D P V. destruct (decode_named _ _ _ CI D) as (F & W). clear D. destruct x as (d & mx). cbn [fst] in *.
  unfold operands_ok. destruct i; cbn [verify_op] in V; cbn [slots_named globals_named] in *;
    try (discriminate V);
    try (split; [apply Forall_nil|split; [apply Forall_nil|exact I]]).
  all: repeat match goal with F : Forall _ (_ :: _) |- _ => apply Forall_cons_iff in F; destruct F as (? & F) end; cbn [fst] in *.
  all: try (apply check_ok in V; split; [apply Forall_cons; [apply offset_ok; assumption|apply Forall_nil]|split; [apply Forall_nil|exact I]]).
  all: try (apply check_ok in V; split; [apply Forall_nil|split; [apply Forall_cons; [apply dat_ok; assumption|apply Forall_nil]|exact I]]).
  all: try (apply cbind_good in V; destruct V as (zz & V & V2); pose proof (check_is _ _ _ _ V); subst zz; apply check_ok in V).
  all: try (split; [apply slots_ok; assumption|split; [apply Forall_nil|exact I]]).
  all: try (split; [apply Forall_nil|split; [|exact I]]).
  all: try (split; [|split; [apply Forall_nil|exact I]]).
  all: try (split; [apply Forall_nil|split; [apply Forall_nil|]]).
  - apply check_ok in V. lia.
  - apply check_ok in V. lia.
  - rewrite forallb_forall in V. apply Forall_forall. intros a A. exact (dat_ok _ _ (V a A)).
  - destruct (v_typed env); [discriminate V|]. destruct (Z.eqb_spec (a mod 4) 0) as [E|E]; [|discriminate V]. cbn [negb] in V. split; [exact E|].
    destruct (a <? 0) eqn:L; [lia|]. rewrite Z.quot_div_nonneg in V by lia. apply pop_le in V; [|unfold is_i32, two31, two32 in *; lia|exact P]. cbn [fst] in V. lia.
  - destruct (Z.eqb_spec (a mod 4) 0) as [E|E]; [|discriminate V]. exact E.
  - destruct (push_constant env prev) as [n|]; [|discriminate V]. apply cbind_good in V. destruct V as (z & V & _). apply check_ok in V.
    unfold call_offset, code_cells in V. repeat (apply andb_true_iff in V; destruct V as (V & ?)). lia.
  - apply check_ok in V. lia.
  - apply check_ok in V. lia.
  - apply check_ok in V. lia.
  - split; [lia|]. apply cbind_good in V2. destruct V2 as ((d1 & m1) & V1 & V2). apply cbind_good in V2. destruct V2 as (z & V3 & V4). apply check_ok in V4.
    unfold push_stack in V1. change (u32 1) with 1 in V1. destruct (two32 <=? _) eqn:T in V1; [discriminate|]. destruct (INT_MAX4 <? _) eqn:T2 in V1; [discriminate|].
    assert (d1 = set_stack (vd_stack d + 1) d) as -> by congruence.
    unfold SP_MAX_CALL_ARGUMENTS in V4. assert (K : 0 <= k <= 127) by lia. rewrite (wrap32_id (k + 1)) in V3 by (unfold is_i32, two31; lia).
    apply pop_le in V3; [|unfold two32; lia|cbn [fst set_stack vd_stack]; lia]. cbn [fst set_stack vd_stack] in V3. lia.
  - apply check_ok in V. apply andb_true_iff in V. destruct V as (A & B). apply Forall_cons; [exact (dat_ok _ _ A)|]. apply Forall_cons; [exact (dat_ok _ _ B)|apply Forall_nil].
  - apply check_ok in V. apply andb_true_iff in V. destruct V as (A & B). apply Forall_cons; [apply offset_ok; assumption|]. apply Forall_cons; [apply offset_ok; assumption|apply Forall_nil].
  - destruct (v_scopes env); [discriminate V|reflexivity].
  - destruct (v_scopes env); [discriminate V|reflexivity].
  - apply cbind_good in V2. destruct V2 as (zz & V2 & _). apply pop_le in V2; [|unfold is_i32, two31, two32 in *; lia|exact P]. cbn [fst] in V2. lia.
  - destruct (v_direct env); [|discriminate V]. apply check_ok in V. split; [reflexivity|]. exact (init_ok _ _ _ _ _ _ W V).
  - destruct (v_scopes env); [reflexivity|discriminate V].
  - destruct (v_scopes env); [reflexivity|discriminate V].
Qed.

Lemma verify_args strict rounds fuel env o v : verify strict rounds fuel env o = CGood (Some v) -> exists args,
  verify_graph strict env (vi_graph v) (vi_an v) args (vi_sizes v) fuel (fold_left Z.add (vi_sizes v) 0) = CGood (vi_max v) /\
  (v_typed env = true -> signature_args env o args).
Proof.
  unfold verify. destruct (Z.eqb_spec (o mod 4) 0) as [E|E]; [|discriminate]. cbn [negb]. intro H.
  apply cbind_good in H. destruct H as (mt & MT & H). apply cbind_good in H. destruct H as (sl & S & H).
  destruct sl as [(args & sizes)|]; [|discriminate].
  apply cbind_good in H. destruct H as (((pr & g) & an) & B & H). apply cbind_good in H. destruct H as (mx & V & H).
  match type of H with CGood (Some ?z) = _ => assert (v = z) as -> by congruence end. cbn [vi_pre vi_graph vi_an vi_sizes vi_max].
  exists args. split; [exact V|]. intros T t rows r RT MR. rewrite RT, MR, T in *.
  destruct (m_start r =? o); [|discriminate MT]. assert (mt = Some (t, r)) as -> by congruence.
  unfold verify_local_slots in S.
  destruct (ReadFunctionSignatureArgCount t (m_sig r)) as [[a|] p|] eqn:RA; try discriminate S.
  exists p. destruct (m_locals r =? 0); [congruence|].
  destruct (ReadLocalSlotCount t (m_locals r)) as [[n|] q|]; try discriminate S. apply cbind_good in S. destruct S as (l & _ & S).
  destruct l; cbn [option_map] in S; congruence.
Qed.

Lemma verify_operands strict rounds fuel env o v : code_ok (v_code env) -> 0 <= o -> counts_ok (v_code env) (o / 4) ->
  verify strict rounds fuel env o = CGood (Some v) ->
  exists args, (v_typed env = true -> signature_args env o args) /\
    forall prev pc d, at_depth (v_code env) (o / 4) prev pc d ->
    exists i, Interp_Model.decode (v_code env) pc = Some i /\ operands_ok env args (vi_sizes v) d i.
Proof.
  intros CO O0 CK V. destruct (verify_args _ _ _ _ _ _ V) as (args & G & SA). apply verify_parts in V. destruct V as (_ & B & F & _).
  exists args. split; [exact SA|]. intros prev pc d A.
  pose proof (sum_pos _ 0 ltac:(lia) F) as X0.
  destruct (blocks_data strict rounds fuel env (o / 4) _ _ _ args _ _ _ CO B X0 G) as (start & last & BD).
  pose proof (at_depth_state strict rounds fuel env (o / 4) _ _ _ args _ _ CO CK B start last BD _ _ _ A) as (b & pv & x & Bb & R & NJ & E & PV).
  destruct (run_at strict rounds fuel env (o / 4) _ _ _ args _ _ CO CK B start last BD _ _ _ _ Bb R) as (f & V).
  destruct (insns_step _ _ _ _ _ _ _ _ _ V (before_end strict rounds fuel env (o / 4) _ _ _ CO CK B b pc Bb (brun_span _ _ _ _ _ _ _ _ _ _ R) NJ)) as (f' & y & (i & D & VO) & _).
  destruct (brun_depth env (o / 4) _ _ args _ _ CO start last BD b _ _ _ Bb R) as ((P & _) & _).
  exists i. split; [exact D|]. subst d. exact (op_operands _ _ _ _ _ _ _ _ CO D P VO).
Qed.

(* PROC; PUSH.C 7; STOR.S.pri -4; LOAD.pri 16; STACK 4; RETN, and the same with typed locals: PROC; ZERO.S 1; RETN. *)
Definition names_slot : list Z := [46; 39; 7; 17; -4; 1; 16; 44; 4; 48].
Definition names_local : venv :=
  mkVenv [46; 92; 1; 48] true true true 65536 1024 4 (Some ([255; 0x32; 1; 0x70; 0x06; 0x60; 2; 0; 0x06; 0x06], [mkRow 0 16 1 5])).

Lemma names_slot_case : code_ok names_slot /\ counts_ok names_slot (0 / 4) /\
  (exists v, verify true 50 50 (plain names_slot) 0 = CGood (Some v) /\ vi_max v = 4) /\
  at_depth names_slot 0 (Some 1) 3 1 /\ Interp_Model.decode names_slot 3 = Some (STOR_S (-4) Pri).
Proof.
  split; [small_env|]. split; [apply counts_all; vm_compute; reflexivity|]. split; [apply max_of_good; vm_compute; reflexivity|].
  split; [|reflexivity].
  assert (A1 : at_depth names_slot 0 None 1 0) by exact (depth_first names_slot 0).
  refine (depth_fall names_slot 0 None 1 0 _ _ A1 eq_refl eq_refl _); vm_compute; auto.
Qed.

Lemma names_local_case : code_ok (v_code names_local) /\ counts_ok (v_code names_local) (0 / 4) /\
  (exists v, verify true 50 50 names_local 0 = CGood (Some v) /\ vi_max v = 32) /\
  at_depth (v_code names_local) 0 None 1 0 /\ Interp_Model.decode (v_code names_local) 1 = Some (ZERO_S 1).
Proof.
  split; [small_env|]. split; [apply counts_all; vm_compute; reflexivity|]. split; [apply max_of_good; vm_compute; reflexivity|].
  split; [exact (depth_first _ 0)|reflexivity].
Qed.

(* PROC; LOAD.pri 1023; RETN, with 1024 bytes of data. *)
Definition straddles : list Z := [46; 1; 1023; 48].
Lemma straddles_case : exists env v pc d prev a, code_ok (v_code env) /\ counts_ok (v_code env) (0 / 4) /\
  verify true 50 50 env 0 = CGood (Some v) /\ at_depth (v_code env) 0 prev pc d /\
  Interp_Model.decode (v_code env) pc = Some (LOAD Pri a) /\ v_dat env < a + 4.
Proof.
  destruct (max_of_good (verify true 50 50 (plain straddles) 0) 0 ltac:(vm_compute; reflexivity)) as (v & V & _).
  exists (plain straddles), v, 1, 0, None, 1023. split; [small_env|]. split; [apply counts_all; vm_compute; reflexivity|].
  split; [exact V|]. split; [exact (depth_first _ 0)|]. split; [reflexivity|reflexivity].
Qed.

(* PROC; STOR.S.pri 65532; RETN: an argument no caller can have passed. *)
Definition above : list Z := [46; 17; 65532; 48].
Lemma above_case : exists env v pc d prev o, code_ok (v_code env) /\ counts_ok (v_code env) (0 / 4) /\
  v_dat env = 0 /\ verify true 50 50 env 0 = CGood (Some v) /\ at_depth (v_code env) 0 prev pc d /\
  Interp_Model.decode (v_code env) pc = Some (STOR_S o Pri) /\ o + 4 = v_mem env.
Proof.
  set (env := mkVenv above false false false 65536 0 4 None).
  destruct (max_of_good (verify true 50 50 env 0) 0 ltac:(vm_compute; reflexivity)) as (v & V & _).
  exists env, v, 1, 0, None, 65532. split; [unfold env; small_env|]. split; [apply counts_all; vm_compute; reflexivity|]. split; [reflexivity|].
  split; [exact V|]. split; [exact (depth_first _ 0)|]. split; [reflexivity|reflexivity].
Qed.
