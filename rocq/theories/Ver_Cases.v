(* The slot tables the compiler writes, and programs that show where the verifier's claims stop. *)
From Coq Require Import ZifyBool.
From Verif Require Import Base Base_Proofs Pool_Model Rtti_Model Rtti_Spec Rtti_Proofs Rt_Model Array_Model Interp_Model Cfg_Model Cfg_Spec Cfg_Proofs Dom_Model Ver_Model Ver_Spec Ver_Proofs Ver_Finish.

Lemma core_cases l : encode_leaf l = leaf_kind l :: match l with LStruct i | LEnumStruct i | LEnum i | LTypeset i | LSignature i => compact i | _ => [] end.
Proof. destruct l; reflexivity. Qed.

Lemma skip_core strict t l ds : Forall is_u32 ds -> is_u32 (leaf_index l) -> (forall i, l <> LStruct i) ->
  forall fuel o post, (length ds < fuel)%nat -> holds t o (flat_map encode_dim ds ++ encode_leaf l ++ post) ->
  skip_to strict fuel t o = Some (o + size_of (flat_map encode_dim ds ++ encode_leaf l)).
Proof.
  intros FD U NS. induction ds as [|d ds IH]; intros fuel o post L H; (destruct fuel as [|f]; [cbn [length] in L; lia|]); cbn [skip_to].
  - cbn [flat_map app] in *. rewrite core_cases in *. cbn [app] in H. apply holds_cons in H. destruct H as (G & H). rewrite G.
    rewrite size_cons. destruct l; cbn [leaf_kind leaf_index] in *; try (exfalso; eapply NS; reflexivity);
      cbv iota beta zeta delta [Z.eqb Pos.eqb kEnum kByRef kConst kTypeset kEnumStruct kFunctionPtr kVoid kFixedArray kArray is_simple existsb orb kBool kInt32 kInt64 kFloat32 kChar8 kAny kTopFunction];
      try (match type of H with holds _ _ (compact ?i ++ _) => destruct (compact_decode t _ i _ U H) as (_ & E & _); rewrite E end; cbn [snd]);
      f_equal; cbn [app]; unfold size_of; cbn [length]; lia.
  - cbn [flat_map] in *. rewrite <- app_assoc in *. unfold encode_dim in H at 1. unfold encode_dim at 1.
    inversion FD as [|? ? FD1 FD2]; subst. cbn [length] in L.
    destruct (d =? 0) eqn:E0.
    + cbn [app] in H. apply holds_cons in H. destruct H as (G & H). rewrite G.
      change (skip_to strict f t (o + 1) = Some (o + size_of ([kArray] ++ flat_map encode_dim ds ++ encode_leaf l))).
      rewrite (IH FD2 f (o + 1) post ltac:(lia) H). f_equal. rewrite (size_app [kArray]). change (size_of [kArray]) with 1. lia.
    + cbn [app] in H. apply holds_cons in H. destruct H as (G & H). rewrite G. destruct (compact_decode t _ d _ FD1 H) as (_ & E & _).
      change ((let (o0, o') := match ReadCompactUint32 t (o + 1) with Got v o' => (v, o') | Bad _ => (None, o + 1) end in
               match o0 with Some _ => skip_to strict f t o' | None => Some o' end) =
              Some (o + size_of (([kFixedArray] ++ compact d) ++ flat_map encode_dim ds ++ encode_leaf l))).
      rewrite E. apply holds_app in H. rewrite (IH FD2 f _ post ltac:(lia) H). f_equal. rewrite !size_app. change (size_of [kFixedArray]) with 1. lia.
Qed.

Lemma local_sizes_at strict t tys : Forall slot_type tys -> forall o post, holds t o (flat_map encode_type tys ++ post) ->
  local_sizes strict t (length tys) o = CGood (Some (map slot_bytes tys)).
Proof.
  induction 1 as [|ty tys (G & NR & NS) F IH]; intros o post H; [reflexivity|].
  cbn [flat_map length local_sizes map] in *. rewrite <- app_assoc in H.
  assert (E : encode_type ty = (if qual_const ty then [kConst] else []) ++ flat_map encode_dim (dims_of ty) ++ encode_leaf (Rtti_Model.base ty)).
  { unfold encode_type, dims_of. destruct (form ty); [reflexivity|contradiction|reflexivity]. }
  assert (ST : exists o1, holds t o1 (flat_map encode_dim (dims_of ty) ++ encode_leaf (Rtti_Model.base ty) ++ flat_map encode_type tys ++ post) /\
            exists b0 b, getb t o = Some b0 /\ (if b0 =? kConst then option_map (fun b => (b, o + 1)) (getb t (o + 1)) else Some (b0, o)) = Some (b, o1) /\
            b = match dims_of ty with [] => leaf_kind (Rtti_Model.base ty) | d :: _ => dim_kind d end).
  { assert (B : forall o', holds t o' (flat_map encode_dim (dims_of ty) ++ encode_leaf (Rtti_Model.base ty) ++ flat_map encode_type tys ++ post) ->
        getb t o' = Some (match dims_of ty with [] => leaf_kind (Rtti_Model.base ty) | d :: _ => dim_kind d end)).
    { intros o' H'. destruct (dims_of ty) as [|d ds]; cbn [flat_map app] in H'.
      - rewrite core_cases in H'. cbn [app] in H'. exact (proj1 (holds_cons _ _ _ _ H')).
      - unfold encode_dim in H' at 1. unfold dim_kind. destruct (d =? 0); exact (proj1 (holds_cons _ _ _ _ H')). }
    rewrite E in H. destruct (qual_const ty).
    - cbn [app] in H. rewrite <- !app_assoc in H. apply holds_cons in H. destruct H as (G1 & H). exists (o + 1). split; [exact H|].
      exists kConst. eexists. split; [exact G1|]. rewrite (B _ H). split; reflexivity.
    - cbn [app] in H. rewrite <- !app_assoc in H. exists o. split; [exact H|]. eexists. eexists. split; [exact (B _ H)|]. split; [|reflexivity].
      destruct (dims_of ty) as [|d ds]; [destruct (Rtti_Model.base ty); reflexivity|]. unfold dim_kind. destruct (d =? 0); reflexivity. }
  destruct ST as (o1 & H1 & b0 & b & G0 & D & Eb). rewrite G0, D. cbv zeta.
  assert (SZ : (if existsb (Z.eqb b) [kBool; kInt32; kFloat32; kChar8; kAny; kTopFunction; kEnum; kFixedArray; kArray; kEnumStruct; kFunctionPtr; kTypeset] then Some 4
          else if b =? kInt64 then Some 8 else None) = Some (slot_bytes ty)).
  { subst b. unfold slot_bytes, dims_of. destruct (form ty) as [| |d ds]; [|contradiction|unfold dim_kind; destruct (d =? 0); reflexivity].
    destruct (Rtti_Model.base ty) eqn:Q; try reflexivity. exfalso. exact (NS _ eq_refl). }
  rewrite SZ. destruct G as (U & FD). pose proof (fuel_enough _ _ _ H1) as FE. rewrite !size_app in FE.
  assert (LD : Z.of_nat (length (dims_of ty)) <= size_of (flat_map encode_dim (dims_of ty))).
  { clear. generalize (dims_of ty). intro l. induction l as [|d l IH]; [unfold size_of; cbn; lia|]. cbn [flat_map length]. rewrite size_app.
    assert (1 <= size_of (encode_dim d)) by (unfold encode_dim; destruct (d =? 0); rewrite ?size_cons; unfold size_of; cbn [length]; lia). lia. }
  pose proof (size_nonneg (encode_leaf (Rtti_Model.base ty))). pose proof (size_nonneg (flat_map encode_type tys)). pose proof (size_nonneg post).
  rewrite (skip_core strict t (Rtti_Model.base ty) (dims_of ty) FD U NS (fuel_for t) o1 (flat_map encode_type tys ++ post) ltac:(lia) H1).
  rewrite app_assoc in H1. apply holds_app in H1. rewrite (IH _ post H1). reflexivity.
Qed.

(* Verification of a method with a proper slot table reports an error, or accepts the method with those slots. *)
Lemma proper_verified strict rounds fuel env o tys : v_typed env = true -> compiled_slots env o tys ->
  verify strict rounds fuel env o <> CGood None /\
  forall v, verify strict rounds fuel env o = CGood (Some v) -> vi_sizes v = map slot_bytes tys.
Proof.
  intros T CS. unfold verify. destruct (negb (o mod 4 =? 0)); [split; [discriminate|intros; discriminate]|]. rewrite T.
  destruct (v_rtti env) as [(t & rows)|] eqn:R; [|cbn [cbind verify_local_slots]; split; [discriminate|intros; discriminate]].
  destruct (method_row rows o) as [r|] eqn:MR; [|split; [discriminate|intros; discriminate]].
  destruct (m_start r =? o); [|split; [discriminate|intros; discriminate]]. cbn [cbind]. unfold verify_local_slots.
  destruct (ReadFunctionSignatureArgCount t (m_sig r)) as [[args|] p|u]; try (split; [discriminate|intros; discriminate]).
  assert (GO : forall l, l = map slot_bytes tys ->
    cbind (CGood (Some (args, l))) (fun slots => match slots with None => CGood None | Some (args, sizes) =>
      cbind (build strict rounds fuel (v_code env) (o / 4)) (fun x => let '(pr, g, an) := x in
      cbind (verify_graph strict env g an args sizes fuel (fold_left Z.add sizes 0)) (fun max => CGood (Some (mkVinfo pr g an max sizes)))) end) <> CGood None /\
    forall v, cbind (CGood (Some (args, l))) (fun slots => match slots with None => CGood None | Some (args, sizes) =>
      cbind (build strict rounds fuel (v_code env) (o / 4)) (fun x => let '(pr, g, an) := x in
      cbind (verify_graph strict env g an args sizes fuel (fold_left Z.add sizes 0)) (fun max => CGood (Some (mkVinfo pr g an max sizes)))) end) = CGood (Some v) ->
      vi_sizes v = map slot_bytes tys).
  { intros l EL. cbn [cbind]. destruct (build strict rounds fuel (v_code env) (o / 4)) as [((pr & g) & an)|e|u|]; cbn [cbind]; try (split; [discriminate|intros; discriminate]).
    destruct (verify_graph _ _ _ _ _ _ _ _) as [mx|e|u|]; cbn [cbind]; try (split; [discriminate|intros; discriminate]).
    split; [discriminate|]. intros v E. match type of E with CGood (Some ?x) = _ => assert (v = x) as -> by congruence end. exact EL. }
  destruct (CS t rows r R MR) as [(ML & ->)|(ML & F & LT & rest & H)].
  - rewrite ML. cbn [Z.eqb]. apply GO. reflexivity.
  - replace (m_locals r =? 0) with false by lia.
    assert (FG : Forall good_type tys) by (revert F; apply Forall_impl; intros ? (Q & _); exact Q).
    destruct (locals_validate t tys (m_locals r) rest FG LT ML H) as (_ & RC). rewrite RC. rewrite Nat2Z.id.
    unfold encode_local_slots in H. rewrite <- !app_comm_cons in H.
    do 3 (apply holds_cons in H; destruct H as (_ & H)). replace (m_locals r + 1 + 1 + 1) with (m_locals r + 3) in H by lia.
    rewrite (local_sizes_at strict t tys F _ rest H). cbn [cbind option_map]. apply GO. reflexivity.
Qed.

Lemma untyped_verified strict rounds fuel env o : v_typed env = false -> verify strict rounds fuel env o <> CGood None.
Proof.
  intros T. unfold verify. rewrite T. destruct (negb (o mod 4 =? 0)); [discriminate|].
  destruct (match v_rtti env with Some _ => _ | None => _ end); cbn [cbind]; try discriminate.
  destruct (build strict rounds fuel (v_code env) (o / 4)) as [((pr & g) & an)|e|u|]; cbn [cbind]; try discriminate.
  destruct (verify_graph _ _ _ _ _ _ _ _); discriminate.
Qed.

Lemma validated_verified strict rounds fuel env o tys mi : v_typed env = false \/ compiled_slots env o tys ->
  validate_method strict rounds fuel env o = CGood mi ->
  exists v, verify strict rounds fuel env o = CGood (Some v) /\
    (v_typed env = true -> local_offsets mi = local_table (map slot_bytes tys) 0).
Proof.
  intros C V. unfold validate_method in V. apply cbind_good in V. destruct V as (r & V & E).
  match type of E with CGood ?x = _ => assert (mi = x) as -> by congruence end. clear E. cbn [local_offsets].
  destruct (v_typed env) eqn:T.
  - destruct C as [C|C]; [discriminate|]. destruct (proper_verified strict rounds fuel env o tys T C) as (N & S).
    destruct r as [v|]; [|contradiction]. exists v. split; [exact V|]. intros _. rewrite (S v V). reflexivity.
  - destruct r as [v|]; [|exfalso; exact (untyped_verified strict rounds fuel env o T V)]. exists v. split; [exact V|discriminate].
Qed.

(* --- Programs --- *)
Definition plain (code : list Z) : venv := mkVenv code false false false 65536 1024 4 None.

(* What a verdict amounts to. *)
Definition max_of (r : cres (option vinfo)) : option Z := match r with CGood (Some v) => Some (vi_max v) | _ => None end.
Lemma max_of_good r mx : max_of r = Some mx -> exists v, r = CGood (Some v) /\ vi_max v = mx.
Proof. destruct r as [[v|]| | |]; cbn; try discriminate. intro E. exists v. split; [reflexivity|congruence]. Qed.

Ltac small_env := match goal with |- code_ok ?c => let k := eval vm_compute in c in change (code_ok k) end; split; [|unfold two31; cbn; lia];
  unfold is_i32, two31; repeat (apply Forall_cons; [lia|]); apply Forall_nil.

(* PROC; PUSH.C 7; l: JZER e; PUSH.C 1; STACK 4; JUMP l; e: STACK 4; RETN *)
Definition pushes : list Z := [46; 39; 7; 53; 44; 39; 1; 44; 4; 51; 12; 44; 4; 48].

(* No cell that could be a CASETBL has a negative cell after it. *)
Lemma counts_all code m : forallb (fun k => negb (cell_at code (Z.of_nat k) =? OP_CASETBL) || (0 <=? cell_at code (Z.of_nat k + 1))) (seq 0 (length code)) = true ->
  counts_ok code m.
Proof.
  intros H pc _ E. destruct (Z.lt_ge_cases pc 0) as [N|N]; [exfalso; revert E; unfold cell_at; destruct pc; try lia; discriminate|].
  destruct (Z.lt_ge_cases pc (Z.of_nat (length code))) as [L|L].
  - rewrite forallb_forall in H. specialize (H (Z.to_nat pc)). rewrite Z2Nat.id in H by lia. specialize (H ltac:(apply in_seq; lia)). lia.
  - exfalso. revert E. unfold cell_at. rewrite nth_overflow by lia. destruct (pc <? 0); discriminate.
Qed.

Lemma pushes_ok : code_ok pushes.
Proof. small_env. Qed.

Lemma pushes_verified : exists v, verify true 50 50 (plain pushes) 0 = CGood (Some v) /\ vi_max v = 8.
Proof. apply max_of_good. vm_compute. reflexivity. Qed.

Lemma pushes_depth : at_depth pushes 0 (Some 5) 7 2.
Proof.
  assert (A1 : at_depth pushes 0 None 1 0) by exact (depth_first pushes 0).
  assert (A3 : at_depth pushes 0 (Some 1) 3 1) by (refine (depth_fall pushes 0 None 1 0 _ _ A1 eq_refl eq_refl _); vm_compute; auto).
  assert (A5 : at_depth pushes 0 (Some 3) 5 1) by (refine (depth_fall pushes 0 (Some 1) 3 1 _ _ A3 eq_refl eq_refl _); vm_compute; auto).
  refine (depth_fall pushes 0 (Some 3) 5 1 _ _ A5 eq_refl eq_refl _); vm_compute; auto.
Qed.

Lemma pushes_counts : counts_ok pushes 0.
Proof. apply counts_all. vm_compute. reflexivity. Qed.

Lemma pushes_case : code_ok (v_code (plain pushes)) /\ counts_ok (v_code (plain pushes)) (0 / 4) /\
  (exists v, verify true 50 50 (plain pushes) 0 = CGood (Some v) /\ vi_max v = 8) /\ at_depth pushes 0 (Some 5) 7 2.
Proof. exact (conj pushes_ok (conj pushes_counts (conj pushes_verified pushes_depth))). Qed.

(* PROC; PUSH5.C 44 400 48 142 0; CASETBL -4 ...: execution comes back to cell 2, STACK 400. *)
Definition steps_back : list Z := [46; 150; 44; 400; 48; 142; 0; 130; -4; 48; 134; 134; 48].

Lemma steps_back_case : exists env v pc d prev, code_ok (v_code env) /\ verify false 50 50 env 0 = CGood (Some v) /\
  at_depth (v_code env) 0 prev pc d /\ d < 0.
Proof.
  destruct (max_of_good (verify false 50 50 (plain steps_back) 0) 20 ltac:(vm_compute; reflexivity)) as (v & V & _).
  exists (plain steps_back), v, 4, (-95), (Some 2). split; [small_env|]. split; [exact V|]. split; [|lia].
  change (v_code (plain steps_back)) with steps_back.
  assert (A1 : at_depth steps_back 0 None 1 0) by exact (depth_first steps_back 0).
  assert (A7 : at_depth steps_back 0 (Some 1) 7 5) by (refine (depth_fall steps_back 0 None 1 0 _ _ A1 eq_refl eq_refl _); vm_compute; auto).
  assert (A2 : at_depth steps_back 0 (Some 7) 2 5) by (refine (depth_fall steps_back 0 (Some 1) 7 5 _ _ A7 eq_refl eq_refl _); vm_compute; auto).
  refine (depth_fall steps_back 0 (Some 7) 2 5 _ _ A2 eq_refl eq_refl _); vm_compute; auto.
Qed.

(* PROC; PUSH5.C ...; PUSH5.C ...; RETN with two typed local slots. *)
Definition two_locals : venv :=
  mkVenv [46; 150; 0; 0; 0; 0; 0; 150; 0; 0; 0; 0; 0; 48] true true true 65536 1024 4
         (Some ([255; 0x32; 0; 0x70; 0x60; 2; 0; 0x06; 0x06], [mkRow 0 56 1 4])).

Definition int_slot : ctype := mkType false Plain LInt.
Lemma int_slot_type : slot_type int_slot.
Proof. split; [split; [cbn; unfold is_u32, two32; lia|constructor]|]. split; [discriminate|]. intros i. discriminate. Qed.

Lemma two_locals_slots : compiled_slots two_locals 0 [int_slot; int_slot].
Proof.
  intros t rows r E M. unfold two_locals in E. cbn [v_rtti] in E. assert (t = [255; 0x32; 0; 0x70; 0x60; 2; 0; 0x06; 0x06] /\ rows = [mkRow 0 56 1 4]) as (-> & ->) by (split; congruence).
  vm_compute in M. assert (r = mkRow 0 56 1 4) as -> by congruence. right. split; [cbn; lia|].
  split; [repeat (apply Forall_cons; [exact int_slot_type|]); apply Forall_nil|]. split; [cbn; lia|].
  exists [], [255; 0x32; 0; 0x70]. split; reflexivity.
Qed.

Lemma two_locals_verified : exists v, verify true 50 50 two_locals 0 = CGood (Some v) /\ vi_max v = 40.
Proof. apply max_of_good. vm_compute. reflexivity. Qed.

Lemma two_locals_case : exists env tys v pc d prev, code_ok (v_code env) /\ counts_ok (v_code env) (0 / 4) /\
  v_typed env = true /\ compiled_slots env 0 tys /\
  verify true 50 50 env 0 = CGood (Some v) /\ at_depth (v_code env) 0 prev pc d /\
  vi_max v < fold_right Z.add 0 (map slot_bytes tys) + 4 * d.
Proof.
  destruct two_locals_verified as (v & V & M). exists two_locals, [int_slot; int_slot], v, 13, 10, (Some 7).
  split; [small_env|]. split; [apply counts_all; vm_compute; reflexivity|]. split; [reflexivity|]. split; [exact two_locals_slots|].
  split; [exact V|]. split; [|rewrite M; cbn; lia].
  set (c := v_code two_locals). assert (A1 : at_depth c 0 None 1 0) by exact (depth_first c 0).
  assert (A7 : at_depth c 0 (Some 1) 7 5) by (refine (depth_fall c 0 None 1 0 _ _ A1 eq_refl eq_refl _); vm_compute; auto).
  refine (depth_fall c 0 (Some 1) 7 5 _ _ A7 eq_refl eq_refl _); vm_compute; auto.
Qed.

(* PROC; SYSREQ.N 0 0; ZERO.PRI; RETN *)
Definition no_args : list Z := [46; 135; 0; 0; 89; 48].

Lemma replaced_pops strict fe natives mi n f s : natives 0 = Some (mkNative (Some f) (Some (FBIN n))) ->
  0 <= sp (rts s) -> sp (rts s) + 8 <= stp (rts s) -> stp (rts s) <= mem_size (rts s) < two31 ->
  exists s', exec strict fe natives mi (SYSREQ_N 0 0) s = Ok tt s' /\ sp (rts s') = sp (rts s) + 8 /\ frm (rts s') = frm (rts s).
Proof.
  intros N S0 S1 S2. cbn [exec]. rewrite N. cbn [n_fn n_repl exec_fstack].
  assert (P : forall r, 0 <= sp r -> sp r + 4 <= stp r -> stp r <= mem_size r < two31 ->
    popStack r = Ok (load32 (mem r) (sp r)) (set_sp (sp r + 4) r)).
  { intros r R0 R1 R2. unfold popStack, bind, get, throw_if, rd32, put, ret, in_mem. replace (sp r >=? stp r) with false by lia.
    unfold ret. replace ((0 <=? sp r) && (sp r + 4 <=? mem_size r)) with true by lia.
    rewrite (wrap32_id (sp r + 4)) by (unfold is_i32, two31 in *; lia). reflexivity. }
  unfold bind at 1. unfold lift at 1. rewrite P by lia. cbv beta iota. unfold bind at 1. unfold lift at 1. cbn [rts].
  rewrite P by (cbn [sp stp mem_size set_sp]; lia). cbv beta iota.
  eexists. split; [reflexivity|]. cbn. split; [lia|reflexivity].
Qed.

Lemma no_args_case : exists env v, code_ok (v_code env) /\ counts_ok (v_code env) (0 / 4) /\
  verify true 50 50 env 0 = CGood (Some v) /\ at_depth (v_code env) 0 None 1 0 /\
  Interp_Model.decode (v_code env) 1 = Some (SYSREQ_N 0 0) /\
  forall strict fe natives mi n f s, natives 0 = Some (mkNative (Some f) (Some (FBIN n))) ->
    0 <= sp (rts s) -> sp (rts s) + 8 <= stp (rts s) -> stp (rts s) <= mem_size (rts s) < two31 ->
    exists s', exec strict fe natives mi (SYSREQ_N 0 0) s = Ok tt s' /\ sp (rts s') = sp (rts s) + 8 /\ frm (rts s') = frm (rts s).
Proof.
  destruct (max_of_good (verify true 50 50 (plain no_args) 0) 4 ltac:(vm_compute; reflexivity)) as (v & V & _).
  exists (plain no_args), v. split; [small_env|]. split; [apply counts_all; vm_compute; reflexivity|]. split; [exact V|].
  split; [exact (depth_first no_args 0)|]. split; [reflexivity|]. exact replaced_pops.
Qed.

(* PROC; JZER l; HEAP 8; TRACKER.PUSH.C 8; HEAP -4; JUMP e; l: TRACKER.PUSH.C 0; e: ZERO.PRI; RETN *)
Definition uneven_trackers : list Z := [46; 53; 44; 45; 8; 160; 8; 45; -4; 51; 52; 160; 0; 89; 48].
Lemma uneven_trackers_case : exists env, code_ok (v_code env) /\ counts_ok (v_code env) (0 / 4) /\
  forall strict, verify strict 50 50 env 0 = CUndef UBMem.
Proof.
  exists (plain uneven_trackers). split; [small_env|]. split; [apply counts_all; vm_compute; reflexivity|].
  intros []; vm_compute; reflexivity.
Qed.

(* A slot table that passes the image's validation but on which the verifier's reader loses its place.  The code
   pops 400 bytes of the caller's frame. *)
Definition bad_slots : list Z := [255; 0x32; 0; 0x70; 0x60; 3; 0; 0x30; 0x80; 0x80; 0x80; 0x80; 0x80; 0x30; 0x42; 0x30; 0x06; 0x06].
Definition unverified : venv :=
  mkVenv [46; 44; 400; 48] true true true 65536 1024 4 (Some (bad_slots, [mkRow 0 16 1 4])).
Lemma unverified_case : exists env t r, v_rtti env = Some (t, [r]) /\ v_typed env = true /\
  (exists o', validateLocalSlots t (m_locals r) = Got true o') /\ (exists o', validateFunctionOffset t (m_sig r) = Got true o') /\
  (forall strict rounds fuel, validate_method strict rounds fuel env 0 = CGood (mkMeth true [])) /\
  (forall strict rounds fuel v, verify strict rounds fuel env 0 <> CGood (Some v)) /\
  verify true 50 50 (mkVenv (v_code env) false true true 65536 1024 4 None) 0 = CBad INSTRUCTION_PARAM.
Proof.
  assert (V : forall strict rounds fuel, verify strict rounds fuel unverified 0 = CGood None).
  { intros strict rounds fuel. unfold verify, unverified. cbn [v_typed v_rtti]. change (negb (0 mod 4 =? 0)) with false. cbv iota.
    assert (L : verify_local_slots strict (Some (bad_slots, mkRow 0 16 1 4)) = CGood None) by (destruct strict; vm_compute; reflexivity).
    unfold method_row. cbn [find m_start m_end]. change ((0 <=? 0) && (0 <? 16)) with true. cbv iota. cbn [m_start Z.eqb cbind]. rewrite L. reflexivity. }
  exists unverified, bad_slots, (mkRow 0 16 1 4). split; [reflexivity|]. split; [reflexivity|].
  split; [exists 18; vm_compute; reflexivity|]. split; [eexists; vm_compute; reflexivity|]. split; [|split; [|vm_compute; reflexivity]].
  - intros. unfold validate_method. rewrite V. reflexivity.
  - intros. rewrite V. discriminate.
Qed.

Lemma switch_loop_verified : exists v, verify true 50 50 (plain switch_loop) 0 = CGood (Some v).
Proof. destruct (max_of_good (verify true 50 50 (plain switch_loop) 0) 0 ltac:(vm_compute; reflexivity)) as (v & V & _). exists v. exact V. Qed.

Lemma switch_loop_verified_exists : exists code v, verify true 50 50 (plain code) 0 = CGood (Some v) /\ code_ok code /\
  forall strict fe p t c, p_code p = code -> a_pc (c_cur c) = 1 ->
  forall k, exists c', silent strict fe p t k c c' /\ a_pc (c_cur c') = 1 /\ depth c' = depth c.
Proof.
  destruct switch_loop_verified as (v & V). exists switch_loop, v. split; [exact V|]. split; [small_env|].
  intros strict fe p t c. exact (switch_loop_silent strict fe t p c).
Qed.

Lemma verify_stops strict env o : code_ok (v_code env) -> 0 <= o -> counts_ok (v_code env) (o / 4) ->
  exists n, forall rounds fuel, (n <= rounds)%nat -> (n <= fuel)%nat -> verify strict rounds fuel env o <> CLoop.
Proof. intros CO O0 CK. destruct (verify_finishes strict env o CO O0 CK) as (n & H). exists n. intros r f R F. exact (proj1 (H r f R F)). Qed.

Lemma verify_reads strict env o : code_ok (v_code env) -> 0 <= o -> counts_ok (v_code env) (o / 4) -> v_scopes env = true ->
  exists n, forall rounds fuel, (n <= rounds)%nat -> (n <= fuel)%nat -> verify strict rounds fuel env o <> CUndef UBMem.
Proof. intros CO O0 CK SC. destruct (verify_finishes strict env o CO O0 CK) as (n & H). exists n. intros r f R F. exact (proj2 (H r f R F) SC). Qed.

Lemma two_locals_good : code_ok (v_code two_locals) /\ counts_ok (v_code two_locals) (0 / 4) /\ v_scopes two_locals = true /\
  exists v, verify true 50 50 two_locals 0 = CGood (Some v) /\ vi_max v = 40.
Proof. split; [small_env|]. split; [apply counts_all; vm_compute; reflexivity|]. split; [reflexivity|exact two_locals_verified]. Qed.

Lemma two_locals_valid : v_typed two_locals = true /\ compiled_slots two_locals 0 [int_slot; int_slot] /\
  exists mi, validate_method true 50 50 two_locals 0 = CGood mi /\ local_offsets mi = [-4; -8].
Proof.
  split; [reflexivity|]. split; [exact two_locals_slots|]. destruct two_locals_verified as (v & V & _).
  destruct (proper_verified true 50 50 two_locals 0 _ eq_refl two_locals_slots) as (_ & S). specialize (S v V).
  unfold validate_method. rewrite V. cbn [cbind]. eexists. split; [reflexivity|]. cbn [local_offsets]. rewrite S. reflexivity.
Qed.
