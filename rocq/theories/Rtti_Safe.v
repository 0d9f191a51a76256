(* Type identifiers, and reading arbitrary tables. *)
From Verif Require Import Base Base_Proofs Pool_Model Pool_Spec Pool_Proofs Rtti_Model Rtti_Spec Rtti_Proofs.
From Coq Require Import ZifyBool.
Ltac Zify.zify_post_hook ::= Z.div_mod_to_equations.

(* ---- The view loses nothing ----------------------------------------------------------------- *)

Lemma leaf_inj a b : leaf_kind a = leaf_kind b -> leaf_index a = leaf_index b -> a = b.
Proof. destruct a, b; cbn; intros; congruence || discriminate. Qed.
Lemma leaf_not_dim l d : leaf_kind l <> dim_kind d.
Proof. unfold dim_kind. destruct l, (d =? 0); discriminate. Qed.

Lemma array_view_inj ds : forall ds' l l' c c' r r',
  array_view ds l c r = array_view ds' l' c' r' -> ds = ds' /\ l = l' /\ c = c' /\ r = r'.
Proof.
  induction ds as [|d ds IH]; intros [|d' ds'] l l' c c' r r' E; cbn [array_view] in E.
  - injection E as E1 E2 E3 E4. split; [reflexivity|]. split; [now apply leaf_inj | auto].
  - injection E as E1 _ _ _. now apply leaf_not_dim in E1.
  - injection E as E1 _ _ _. symmetry in E1. now apply leaf_not_dim in E1.
  - assert (d = d') as -> by congruence. assert (c = c') as -> by congruence. assert (r = r') as -> by congruence.
    assert (array_view ds l false false = array_view ds' l' false false) as E' by congruence.
    apply IH in E' as (-> & -> & _). auto.
Qed.
Lemma view_inj a b : view a = view b -> a = b.
Proof.
  destruct a as [c f l], b as [c' f' l']. unfold view; cbn [form base qual_const].
  destruct f, f'; intros E; apply array_view_inj in E as (E1 & E2 & E3 & E4); congruence.
Qed.
Lemma view_not_void t : view t <> view_return None.
Proof.
  cbn. unfold view. destruct (form t); cbn [array_view]; intros E; injection E as E;
    (unfold dim_kind in E; destruct (first =? 0); discriminate E) || (destruct (base t); discriminate E).
Qed.
Lemma view_signature_inj a b : view_signature a = view_signature b -> a = b.
Proof.
  destruct a as [v r a], b as [v' r' a']. unfold view_signature; cbn [sig_return sig_variadic sig_args].
  intros E. assert (v = v') as -> by congruence.
  assert (R : view_return r = view_return r') by congruence.
  assert (M : map (fun a => Some (view a)) a = map (fun a => Some (view a)) a') by congruence. clear E.
  assert (r = r') as ->.
  { destruct r as [x|], r' as [y|]; auto.
    - f_equal. now apply view_inj.
    - now apply view_not_void in R.
    - symmetry in R. now apply view_not_void in R. }
  f_equal. revert a' M. induction a as [|x a IH]; intros [|y a'] M; cbn in M; try discriminate; [reflexivity|].
  assert (view x = view y) by congruence. f_equal; [now apply view_inj | apply IH; congruence].
Qed.

(* ---- Type identifiers ----------------------------------------------------------------------- *)

Lemma leaf_byte_ok l : is_byte (leaf_kind l).
Proof. destruct l; cbn; unfold is_byte; unfold kBool, kAny, kChar8, kFloat32, kInt32, kInt64, kTopFunction, kClassdef, kEnumStruct, kEnum, kTypeset, kFunctionPtr; lia. Qed.
Lemma core_bytes ds l : Forall is_u32 ds -> is_u32 (leaf_index l) -> Forall is_byte (core ds l).
Proof.
  intros D L. unfold core. apply Forall_app. split.
  - induction D as [|d ds D1 D2 IH]; cbn [flat_map]; [constructor|]. apply Forall_app. split; [|exact IH].
    unfold encode_dim. destruct (d =? 0).
    + constructor; [unfold is_byte, kArray; lia|constructor].
    + constructor; [unfold is_byte, kFixedArray; lia|]. now apply compact_bytes.
  - rewrite encode_leaf_eq. constructor; [apply leaf_byte_ok|].
    destruct (is_simple _); [constructor | now apply compact_bytes].
Qed.
Lemma encode_type_bytes t : good_type t -> Forall is_byte (encode_type t).
Proof.
  intros [G1 G2]. rewrite encode_type_core. apply Forall_app. split.
  - destruct (qual_const t); repeat constructor; unfold kConst; lia.
  - apply Forall_app. split; [|now apply core_bytes].
    destruct (form t); repeat constructor; unfold kByRef; lia.
Qed.

Lemma inline_payload bytes : Forall is_byte bytes -> (length bytes <= 4)%nat ->
  inline_bytes (payload_of bytes) = bytes ++ repeat 0 (4 - length bytes).
Proof.
  intros B L. unfold inline_bytes, byte_of.
  change (2 ^ (8 * 0)) with 1. change (2 ^ (8 * 1)) with 256. change (2 ^ (8 * 2)) with 65536.
  change (2 ^ (8 * 3)) with 16777216.
  destruct bytes as [|a [|b [|c [|d [|e rest]]]]]; cbn [length payload_of app repeat Nat.sub] in *;
    repeat match goal with H : Forall is_byte (_ :: _) |- _ => inversion H; clear H; subst end;
    unfold is_byte in *; repeat f_equal; lia.
Qed.
Lemma payload_nonneg bytes : Forall is_byte bytes -> 0 <= payload_of bytes.
Proof. induction 1 as [|b l B _ IH]; cbn [payload_of]; [lia|]. unfold is_byte in B. lia. Qed.

Lemma make_type_id p k : 0 <= p <= kMaxTypeIdPayload -> 0 <= k < 16 ->
  MakeTypeId p k mod 16 = k /\ (MakeTypeId p k / 16) mod 2 ^ 28 = p.
Proof.
  unfold MakeTypeId, kMaxTypeIdPayload, u32, two32. change (2 ^ 28) with 268435456. intros P K.
  rewrite (Z.mod_small (p * 16)) by lia. lia.
Qed.

Lemma found_holds l i run : found_at l i run -> exists post, holds l i (run ++ post).
Proof. intros (a & b & -> & L). exists b. exists a. auto. Qed.

Lemma typeid_round_trip past ty later p id :
  good_type ty -> to_typeid (add_all builder_pool past) ty = (p, id) ->
  size (buffer (add_all builder_pool past)) <= kMaxTypeIdPayload ->
  capacity (buffer (add_all builder_pool past)) + size_of (encode_type ty) <= INT_MAX ->
  let t := contents (add_all p later) in
  (exists o, typeFromTypeId t id = Got (Some (view ty)) o) /\ (exists o, validateType t id = Got true o).
Proof.
  intros G E SZ CAP t. unfold to_typeid in E. pose proof (encode_type_bytes ty G) as B.
  destruct ((Z.of_nat (length (encode_type ty)) <=? 4) && (payload_of (encode_type ty) <=? kMaxTypeIdPayload)) eqn:C.
  - assert (p = add_all builder_pool past) by congruence.
    assert (id = MakeTypeId (payload_of (encode_type ty)) kTypeId_Inline) as -> by congruence.
    pose proof (payload_nonneg _ B).
    destruct (make_type_id (payload_of (encode_type ty)) kTypeId_Inline ltac:(lia) ltac:(unfold kTypeId_Inline; lia)) as (K & P).
    unfold typeFromTypeId, validateType. rewrite K, P. change (kTypeId_Inline =? kTypeId_Inline) with true. cbv iota.
    rewrite inline_payload by (auto; lia).
    destruct (type_round_trip _ ty 0 (repeat 0 (4 - length (encode_type ty))) G (holds_0 _)) as (D & V). rewrite D, V. eauto.
  - destruct (pool_add (add_all builder_pool past) (encode_type ty)) as [p' off] eqn:A.
    assert (p' = p) as -> by congruence. assert (id = MakeTypeId off kTypeId_Complex) as -> by congruence. clear E.
    change (add_all builder_pool past) with (add_all new_pool ([255] :: past)) in *.
    assert (NZ : off <> 0).
    { intros ->. apply pool_refusal in A as [_ A]. unfold size_of in CAP. lia. }
    pose proof (pool_data _ _ later _ _ A NZ) as FA. fold t in FA.
    destruct (add_all_spec ([255] :: past) _ new_pool_inv) as (I & _ & _).
    destruct (pool_add_spec _ _ _ _ I A) as (I' & _ & _ & LK & _).
    assert (OB : 0 <= off <= kMaxTypeIdPayload).
    { unfold pool_add in A. destruct (lookup _ _) as [k|] eqn:L.
      - assert (k = off) as -> by congruence. apply lookup_some in L. apply I in L as [L1 L2].
        destruct L2 as (a & b & EQ & LE). unfold contents in EQ. unfold size in SZ. rewrite EQ in SZ.
        rewrite app_length in SZ. lia.
      - destruct (writeBytes _ _) as [b' []]; [assert (off = size (buffer (add_all new_pool ([255] :: past)))) as -> by congruence; unfold size in *; lia | congruence]. }
    destruct (make_type_id off kTypeId_Complex OB ltac:(unfold kTypeId_Complex; lia)) as (K & P).
    destruct (found_holds _ _ _ FA) as (post & H).
    destruct (type_round_trip t ty off post G H) as (D & V).
    unfold typeFromTypeId, validateType. rewrite K, P. change (kTypeId_Complex =? kTypeId_Inline) with false.
    change (kTypeId_Complex =? kTypeId_Complex) with true. cbv iota.
    pose proof (holds_len _ _ _ H) as HL. rewrite size_app in HL.
    pose proof (encode_type_size ty). pose proof (size_nonneg post).
    replace (off >=? tlen t) with false by lia. rewrite D, V. eauto.
Qed.

(* ---- Validating arbitrary bytes ------------------------------------------------------------- *)

(* A definite answer, at or after the starting point; strictly after it when positive. *)
Definition sane (o : Z) (r : pres bool) : Prop :=
  exists b o', r = Got b o' /\ o <= o' /\ (b = true -> o < o').

Lemma next_in t o : 0 <= o < tlen t -> exists b, next t o = Got b (o + 1).
Proof. intros H. destruct (getb_some t o H) as (b & E & _). exists b. unfold next. now rewrite E. Qed.
Lemma pmatch_in t o b : 0 <= o < tlen t -> exists m o', pmatch t b o = Got m o' /\ o <= o' <= o + 1.
Proof.
  intros H. destruct (getb_some t o H) as (x & E & _). unfold pmatch, peek. rewrite E. cbn.
  destruct (x =? b); do 2 eexists; (split; [reflexivity|lia]).
Qed.

Lemma try_sane t : forall fuel o, 0 <= o -> tlen t - o < Z.of_nat fuel -> (0 < fuel)%nat ->
  sane o (try_loop fuel t o).
Proof.
  induction fuel as [|n IH]; intros o O F P; [lia|].
  cbn [try_loop]. destruct (o <? tlen t) eqn:E; [|exists false, o; repeat split; lia || discriminate].
  destruct (next_in t o ltac:(lia)) as (b & ->). cbn [pbind]. destruct (b <? 128).
  - exists true, (o + 1). repeat split; lia.
  - destruct (IH (o + 1) ltac:(lia) ltac:(lia) ltac:(lia)) as (r & o' & -> & L & M). exists r, o'. repeat split; lia.
Qed.
Lemma tryDecode_sane t o : 0 <= o -> sane o (tryDecodeUint32 t o).
Proof. intros O. apply try_sane; unfold tlen; lia. Qed.

Lemma sane_false o : sane o (Got false o).
Proof. exists false, o. repeat split; try lia; discriminate. Qed.
Lemma sane_false' o o' : o <= o' -> sane o (Got false o').
Proof. exists false, o'. repeat split; try lia; discriminate. Qed.
Lemma sane_le o o' r : o <= o' -> sane o' r -> sane o r.
Proof. intros L (b & q & -> & L' & M). exists b, q. split; [reflexivity|]. split; [lia|]. intros T. specialize (M T). lia. Qed.

Section Sane.
  Variables (t : list Z) (val : Z -> pres bool) (n : nat).
  Hypothesis VAL : forall o, 0 <= o -> tlen t - o < Z.of_nat n -> (0 < n)%nat -> sane o (val o).

  (* not strictly after: no argument, no byte *)
  Lemma validate_args_sane : forall argc o, 0 <= o -> tlen t - o < Z.of_nat n -> (0 < n)%nat ->
    exists b o', validate_args t val argc o = Got b o' /\ o <= o'.
  Proof.
    induction argc as [|k IH]; intros o O F P; cbn [validate_args]; [eauto with zarith|].
    unfold past_end. destruct (o >=? tlen t) eqn:E; [eauto with zarith|].
    destruct (pmatch_in t o kConst ltac:(lia)) as (m & o1 & -> & L1). cbn [pbind].
    destruct (o1 >=? tlen t) eqn:E1; [exists false, o1; split; [reflexivity|lia]|].
    destruct (pmatch_in t o1 kByRef ltac:(lia)) as (m2 & o2 & -> & L2). cbn [pbind].
    destruct (VAL o2 ltac:(lia) ltac:(lia) P) as (v & o3 & -> & L3 & M3). cbn [pbind].
    destruct v; [|exists false, o3; split; [reflexivity|lia]].
    destruct (IH o3 ltac:(lia) ltac:(lia) P) as (b & o4 & -> & L4). exists b, o4. split; [reflexivity|lia].
  Qed.

  Lemma validateFunction_sane o : 0 <= o -> tlen t - o < Z.of_nat n + 1 -> (0 < n)%nat \/ tlen t <= o ->
    sane o (validateFunction_with t val o).
  Proof.
    intros O F P. unfold validateFunction_with, past_end.
    destruct (o >=? tlen t) eqn:E; [apply sane_false|]. assert (0 < n)%nat as PN by lia.
    destruct (pmatch_in t o kFunction ltac:(lia)) as (m & o1 & -> & L1). cbn [pbind].
    destruct (o1 >=? tlen t) eqn:E1; [apply sane_false'; lia|].
    destruct (next_in t o1 ltac:(lia)) as (argc & ->). cbn [pbind].
    destruct (o1 + 1 >=? tlen t) eqn:E2; [apply sane_false'; lia|].
    destruct (pmatch_in t (o1 + 1) kLegacyVariadic ltac:(lia)) as (m2 & o2 & -> & L2). cbn [pbind].
    destruct (o2 >=? tlen t) eqn:E3; [apply sane_false'; lia|].
    destruct (pmatch_in t o2 kVoid ltac:(lia)) as (m3 & o3 & -> & L3). cbn [pbind].
    assert (R : exists v o4, (if m3 then Got true o3 else val o3) = Got v o4 /\ o3 <= o4).
    { destruct m3; [eauto with zarith|].
      destruct (VAL o3 ltac:(lia) ltac:(lia) PN) as (v & o4 & -> & L & _). eauto. }
    destruct R as (v & o4 & -> & L4). cbn [pbind]. destruct v; [|apply sane_false'; lia].
    destruct (validate_args_sane (Z.to_nat argc) o4 ltac:(lia) ltac:(lia) PN) as (b & o5 & -> & L5).
    exists b, o5. repeat split; lia.
  Qed.
End Sane.

Lemma validate_loop_sane t : forall fuel o, 0 <= o -> tlen t - o < Z.of_nat fuel -> (0 < fuel)%nat ->
  sane o (validate_loop t fuel o).
Proof.
  induction fuel as [|n IH]; intros o O F P; [lia|]. rewrite validate_unfold. unfold past_end at 1.
  destruct (o >=? tlen t) eqn:E; [apply sane_false|].
  destruct (pmatch_in t o kConst ltac:(lia)) as (m & o1 & -> & L1). cbn [pbind].
  unfold past_end. destruct (o1 >=? tlen t) eqn:E1; [apply sane_false'; lia|].
  destruct (pmatch_in t o1 kByRef ltac:(lia)) as (m2 & o2 & -> & L2). cbn [pbind].
  unfold validate_body, past_end. destruct (o2 >=? tlen t) eqn:E2; [apply sane_false'; lia|].
  destruct (next_in t o2 ltac:(lia)) as (ty & ->). cbn [pbind].
  assert (NZ : (0 < n)%nat) by lia.
  assert (REC : forall o', o2 + 1 <= o' -> sane o' (validate_loop t n o')) by (intros o' L; apply IH; lia).
  destruct (is_simple ty); [exists true, (o2 + 1); repeat split; lia|].
  destruct (tryDecode_sane t (o2 + 1) ltac:(lia)) as (r & o3 & TR & L3 & M3).
  destruct (ty =? kFixedArray).
  { rewrite TR. cbn [pbind]. destruct r; [|apply sane_false'; lia].
    apply sane_le with o3; [lia|]. apply REC; lia. }
  destruct (ty =? kArray); [apply sane_le with (o2 + 1); [lia|apply REC; lia]|].
  destruct (is_indexed ty); [rewrite TR; exists r, o3; repeat split; lia|].
  destruct (ty =? kFunction); [|apply sane_false'; lia].
  apply sane_le with (o2 + 1); [lia|]. apply (validateFunction_sane t _ n); [|lia..].
  intros o' O' F' P'. apply IH; lia.
Qed.

Lemma validate_sane t o : 0 <= o -> sane o (validate t o).
Proof. intros O. apply validate_loop_sane; unfold fuel_for, tlen; lia. Qed.
Lemma validateFunction_answers t o : 0 <= o -> answers (validateFunctionOffset t o).
Proof.
  intros O. destruct (validateFunction_sane t (validate_loop t (fuel_for t)) (fuel_for t)
    (fun o' O' F' P' => validate_loop_sane t (fuel_for t) o' O' F' P') o O) as (b & o' & E & _);
    [unfold fuel_for, tlen; lia..|]. exists b, o'. exact E.
Qed.
Lemma validate_many_sane t : forall fuel count o, 0 <= o -> tlen t - o < Z.of_nat fuel -> (0 < fuel)%nat ->
  exists b o', validate_many t fuel count o = Got b o'.
Proof.
  induction fuel as [|n IH]; intros count o O F P; [lia|]. cbn [validate_many].
  destruct (count <=? 0); [eauto|].
  destruct (validate_sane t o O) as (v & o1 & E & L & M). rewrite E. cbn [pbind].
  destruct v; [|eauto]. specialize (M eq_refl).
  destruct n as [|n']; [|apply IH; lia].
  (* fuel 1: the table was already used up, so nothing can have been read *)
  exfalso. assert (tlen t <= o) by lia. revert E. unfold validate, fuel_for. rewrite validate_unfold.
  unfold past_end. replace (o >=? tlen t) with true by lia. intros [=].
Qed.
Lemma validateLocalSlots_answers t o : 0 <= o -> answers (validateLocalSlots t o).
Proof.
  intros O. unfold validateLocalSlots, answers. destruct (o =? 0); [eauto|].
  destruct ((o >=? tlen t) || (tlen t - o <? 3)) eqn:E; [eauto|].
  destruct (next_in t o ltac:(lia)) as (b & ->). cbn [pbind]. destruct (negb _); [eauto|].
  destruct (next_in t (o + 1) ltac:(lia)) as (lo & ->). cbn [pbind].
  destruct (next_in t (o + 1 + 1) ltac:(lia)) as (hi & ->). cbn [pbind].
  apply validate_many_sane; unfold fuel_for, tlen in *; lia.
Qed.
Lemma validateType_answers t id : answers (validateType t id).
Proof.
  unfold validateType, answers. destruct (_ =? kTypeId_Inline).
  - destruct (validate_sane (inline_bytes ((id / 16) mod 2 ^ 28)) 0 ltac:(lia)) as (b & o & -> & _). eauto.
  - destruct (_ =? kTypeId_Complex); [|eauto]. destruct (_ >=? tlen t); [eauto|].
    destruct (validate_sane t ((id / 16) mod 2 ^ 28)) as (b & o & -> & _); [apply Z.mod_pos_bound; reflexivity|eauto].
Qed.

(* decodeUint32 right after a successful tryDecodeUint32 stays inside the table. *)
Lemma decode_after_try t : forall fuel o value shift o', 0 <= shift -> try_loop fuel t o = Got true o' ->
  (exists v, decode_loop fuel t value shift o = Got v o') \/ decode_loop fuel t value shift o = Bad ShiftTooFar.
Proof.
  induction fuel as [|n IH]; intros o value shift o' S; cbn [try_loop decode_loop]; [discriminate|].
  destruct (o <? tlen t); [|discriminate]. destruct (next t o) as [b o1|w]; [|discriminate]. cbn [pbind].
  destruct (shift >=? 32); [auto|]. destruct (b <? 128); [intros [= <-]; eauto|].
  intros H. apply (IH _ _ (shift + 7) _ ltac:(lia) H).
Qed.
Lemma validateTypeset_answers t o : 0 <= o ->
  answers (validateTypesetOffset t o) \/ validateTypesetOffset t o = Bad ShiftTooFar.
Proof.
  intros O. unfold validateTypesetOffset, validateTypeset, answers.
  destruct (tryDecode_sane t o O) as (r & o1 & TR & L & M). rewrite TR. cbn [pbind].
  destruct r; [|eauto]. unfold tryDecodeUint32 in TR.
  destruct (decode_after_try t _ o 0 0 o1 ltac:(lia) TR) as [(v & D)|D]; unfold decodeUint32; rewrite D; cbn [pbind]; [left|auto].
  apply validate_many_sane; unfold fuel_for, tlen in *; lia.
Qed.

(* The bounds-checked reader. *)
Lemma fnext_cases t o : 0 <= o -> (exists b, fnext t o = Got (Some b) (o + 1)) /\ o < tlen t \/ fnext t o = Got None o.
Proof.
  intros O. unfold fnext. destruct (o >=? tlen t) eqn:E; [auto|]. left.
  destruct (next_in t o ltac:(lia)) as (b & ->). split; [cbn; eauto|lia].
Qed.
Ltac fstep t o := let H := fresh in let b := fresh "b" in
  destruct (fnext_cases t o ltac:(lia)) as [[[b ->] H] | ->]; cbn [pbind].
Lemma argcount_answers t o : 0 <= o -> answers (ReadFunctionSignatureArgCount t o).
Proof.
  intros O. unfold ReadFunctionSignatureArgCount, answers. fstep t o; [|eauto].
  destruct (_ =? kFunction); [|eauto]. fstep t (o + 1); eauto.
Qed.
Lemma slotcount_answers t o : 0 <= o -> answers (ReadLocalSlotCount t o).
Proof.
  intros O. unfold ReadLocalSlotCount, answers. fstep t o; [|eauto].
  destruct (_ =? kLocalSlots); [|eauto]. fstep t (o + 1); [|eauto]. fstep t (o + 1 + 1); eauto.
Qed.
Lemma fast_loop_answers t : forall k fuel value shift o, 0 <= o -> shift = 7 * (5 - Z.of_nat k) -> (1 <= k <= 5)%nat ->
  (k < fuel)%nat -> exists v o', fast_loop fuel t value shift o = Got v o' /\ o <= o'.
Proof.
  induction k as [|k IH]; intros fuel value shift o O S K F; [lia|]. destruct fuel as [|fuel]; [lia|].
  cbn [fast_loop]. fstep t o; [|eauto with zarith]. destruct (_ <? 128); [eauto with zarith|].
  destruct (shift + 7 >=? 32) eqn:E; [eauto with zarith|].
  destruct (IH fuel (add_bits value b shift) (shift + 7) (o + 1) ltac:(lia) ltac:(lia) ltac:(lia) ltac:(lia))
    as (v & o' & -> & L). exists v, o'. split; [reflexivity|lia].
Qed.
Lemma compact_answers t o : 0 <= o -> exists v o', ReadCompactUint32 t o = Got v o' /\ o <= o'.
Proof. intros O. apply (fast_loop_answers t 5); lia. Qed.
Lemma skip_answers t : forall fuel o, 0 <= o -> tlen t - o < Z.of_nat fuel -> (0 < fuel)%nat ->
  answers (skip_loop fuel t o) \/ skip_loop fuel t o = Bad AssertFailed.
Proof.
  induction fuel as [|n IH]; intros o O F P; [lia|]. cbn [skip_loop]. unfold answers in *.
  fstep t o; [|eauto].
  assert (B : exists b' o1, (if (b =? kByRef) || (b =? kConst) then fnext t (o + 1) else Got (Some b) (o + 1)) = Got b' o1 /\ o + 1 <= o1).
  { destruct (_ || _); [|eauto with zarith]. fstep t (o + 1); eauto with zarith. }
  destruct B as (b' & o1 & -> & L1). cbn [pbind]. destruct b' as [b'|]; [|eauto].
  destruct (_ || _); [eauto|]. destruct (compact_answers t o1 ltac:(lia)) as (v & o2 & CA & L2).
  destruct (_ =? kFixedArray).
  { rewrite CA. cbn [pbind]. destruct v; [|eauto]. apply IH; lia. }
  destruct (_ =? kArray); [apply IH; lia|]. destruct (existsb _ _); [|auto].
  rewrite CA. cbn [pbind]. destruct v; eauto.
Qed.
Lemma SkipNextType_answers t o : 0 <= o -> answers (SkipNextType t o) \/ SkipNextType t o = Bad AssertFailed.
Proof. intros O. apply skip_answers; unfold fuel_for, tlen; lia. Qed.

(* ---- Decoding what was validated ------------------------------------------------------------ *)

Lemma next_got t o b o' : next t o = Got b o' -> getb t o = Some b /\ o' = o + 1 /\ 0 <= o < tlen t.
Proof.
  unfold next. destruct (getb t o) as [x|] eqn:E; [|discriminate]. intros [= <- <-]. apply getb_in in E. auto.
Qed.
Lemma pmatch_got t x o b o' : pmatch t x o = Got b o' -> o <= o' <= o + 1 /\ 0 <= o < tlen t.
Proof.
  unfold pmatch, peek. destruct (getb t o) as [y|] eqn:E; [|discriminate]. apply getb_in in E. cbn [pbind].
  destruct (y =? x); intros [= <- <-]; lia.
Qed.
Lemma try_lt t : forall fuel o o1, try_loop fuel t o = Got true o1 -> o < o1.
Proof.
  induction fuel as [|n IH]; intros o o1; cbn [try_loop]; [discriminate|].
  destruct (o <? tlen t); [|discriminate]. destruct (next t o) as [b o'|w] eqn:N; [|discriminate]. cbn [pbind].
  apply next_got in N as (_ & -> & _). destruct (b <? 128); [intros [= <-]; lia|].
  intros H. apply IH in H. lia.
Qed.

Lemma short_decode t o1 o0 : short_numbers t o0 o1 ->
  forall fuel k o value, try_loop fuel t o = Got true o1 -> o0 <= o - Z.of_nat k ->
  (forall j b, o - Z.of_nat k <= j < o -> getb t j = Some b -> 128 <= b) -> (k <= 4)%nat ->
  exists v, decode_loop fuel t value (7 * Z.of_nat k) o = Got v o1.
Proof.
  intros SH. induction fuel as [|n IH]; intros k o value TR L0 PREV K; cbn [try_loop decode_loop] in *; [discriminate|].
  destruct (o <? tlen t) eqn:E; [|discriminate]. destruct (next t o) as [b o'|w] eqn:N; [|discriminate].
  apply next_got in N as (GB & -> & _). cbn [pbind] in *. replace (7 * Z.of_nat k >=? 32) with false by lia.
  destruct (b <? 128) eqn:B; [injection TR as <-; eauto|].
  pose proof (try_lt _ _ _ _ TR) as LT.
  assert (PREV' : forall j c, o - Z.of_nat k <= j < o + 1 -> getb t j = Some c -> 128 <= c).
  { intros j c J G. destruct (Z.eq_dec j o) as [->|NE]; [rewrite GB in G; injection G as <-; lia|].
    apply (PREV j); [lia|exact G]. }
  destruct (Nat.eq_dec k 4) as [->|K4].
  - destruct (SH (o - 4) ltac:(lia) ltac:(lia)) as (j & c & J & G & C).
    specialize (PREV' j c ltac:(lia) G). lia.
  - destruct (IH (S k) (o + 1) (add_bits value b (7 * Z.of_nat k)) TR ltac:(lia)) as (v & D).
    + intros j c J. apply PREV'. lia.
    + lia.
    + replace (7 * Z.of_nat k + 7) with (7 * Z.of_nat (S k)) by lia. eauto.
Qed.
Lemma short_decodeUint32 t o o1 o0 : tryDecodeUint32 t o = Got true o1 -> short_numbers t o0 o1 -> o0 <= o ->
  exists v, decodeUint32 t o = Got v o1.
Proof.
  intros TR SH L. apply (short_decode t o1 o0 SH (S (length t)) 0 o 0 TR); [lia| |lia]. intros; lia.
Qed.

(* Parsing never moves backwards, whatever the fuel. *)
Lemma try_mono t : forall fuel o b o1, try_loop fuel t o = Got b o1 -> o <= o1.
Proof.
  induction fuel as [|n IH]; intros o b o1; cbn [try_loop]; [discriminate|].
  destruct (o <? tlen t); [|intros [= _ <-]; lia]. destruct (next t o) as [x o'|w] eqn:N; [|discriminate]. cbn [pbind].
  apply next_got in N as (_ & -> & _). destruct (x <? 128); [intros [= _ <-]; lia|]. intros H. apply IH in H. lia.
Qed.
Lemma validate_loop_mono t : forall fuel o b o1, validate_loop t fuel o = Got b o1 -> o <= o1.
Proof.
  induction fuel as [|n IH]; intros o b o1; [discriminate|]. rewrite validate_unfold.
  destruct (past_end t o); [intros [= _ <-]; lia|].
  destruct (pmatch t kConst o) as [m p1|w] eqn:P1; [|discriminate]. cbn [pbind]. apply pmatch_got in P1.
  destruct (past_end t p1); [intros [= _ <-]; lia|].
  destruct (pmatch t kByRef p1) as [m2 p2|w] eqn:P2; [|discriminate]. cbn [pbind]. apply pmatch_got in P2.
  unfold validate_body. destruct (past_end t p2); [intros [= _ <-]; lia|].
  destruct (next t p2) as [ty p3|w] eqn:N; [|discriminate]. cbn [pbind]. apply next_got in N as (_ & -> & _).
  destruct (is_simple ty); [intros [= _ <-]; lia|].
  destruct (ty =? kFixedArray).
  { destruct (tryDecodeUint32 t (p2 + 1)) as [ok p4|w] eqn:TR; [|discriminate]. cbn [pbind]. apply try_mono in TR.
    destruct ok; [intros V; apply IH in V; lia | intros [= _ <-]; lia]. }
  destruct (ty =? kArray); [intros V; apply IH in V; lia|].
  destruct (is_indexed ty); [intros TR; apply try_mono in TR; lia|].
  destruct (ty =? kFunction); [|intros [= _ <-]; lia].
  unfold validateFunction_with. destruct (past_end t (p2 + 1)); [intros [= _ <-]; lia|].
  destruct (pmatch t kFunction (p2 + 1)) as [m3 p3|w] eqn:P3; [|discriminate]. cbn [pbind]. apply pmatch_got in P3.
  destruct (past_end t p3); [intros [= _ <-]; lia|]. destruct (next t p3) as [argc p4|w] eqn:N4; [|discriminate]. cbn [pbind].
  apply next_got in N4 as (_ & -> & _). destruct (past_end t (p3 + 1)); [intros [= _ <-]; lia|].
  destruct (pmatch t kLegacyVariadic (p3 + 1)) as [m5 p5|w] eqn:P5; [|discriminate]. cbn [pbind]. apply pmatch_got in P5.
  destruct (past_end t p5); [intros [= _ <-]; lia|].
  destruct (pmatch t kVoid p5) as [m6 p6|w] eqn:P6; [|discriminate]. cbn [pbind]. apply pmatch_got in P6.
  assert (A : forall k q, validate_args t (validate_loop t n) k q = Got b o1 -> q <= o1).
  { induction k as [|k IHk]; intros q; cbn [validate_args]; [intros [= _ ->]; lia|].
    destruct (past_end t q); [intros [= _ <-]; lia|].
    destruct (pmatch t kConst q) as [a1 q1|w] eqn:Q1; [|discriminate]. cbn [pbind]. apply pmatch_got in Q1.
    destruct (past_end t q1); [intros [= _ <-]; lia|].
    destruct (pmatch t kByRef q1) as [a2 q2|w] eqn:Q2; [|discriminate]. cbn [pbind]. apply pmatch_got in Q2.
    destruct (validate_loop t n q2) as [v q3|w] eqn:Q3; [|discriminate]. cbn [pbind]. apply IH in Q3.
    destruct v; [intros V; apply IHk in V; lia | intros [= _ <-]; lia]. }
  destruct m6; cbn [pbind].
  - intros V. apply A in V; lia.
  - destruct (validate_loop t n p6) as [v p7|w] eqn:P7; [|discriminate]. cbn [pbind]. apply IH in P7.
    destruct v; [intros V; apply A in V; lia | intros [= _ <-]; lia].
Qed.

Lemma validated_decodes t o0 o1 : no_function t o0 o1 -> short_numbers t o0 o1 ->
  forall fuel o c, o0 <= o -> validate_loop t fuel o = Got true o1 ->
  o < o1 /\ exists r c', decode t fuel c o = Got (Some r, c') o1.
Proof.
  intros NF SH. induction fuel as [|n IH]; intros o c L; [discriminate|].
  rewrite validate_unfold, decode_unfold. destruct (past_end t o); [discriminate|].
  destruct (pmatch t kConst o) as [m p1|w] eqn:P1; [|discriminate]. cbn [pbind]. apply pmatch_got in P1.
  destruct (past_end t p1); [discriminate|].
  destruct (pmatch t kByRef p1) as [m2 p2|w] eqn:P2; [|discriminate]. cbn [pbind]. apply pmatch_got in P2.
  unfold validate_body, decode_body. destruct (past_end t p2); [discriminate|].
  destruct (next t p2) as [ty p3|w] eqn:N; [|discriminate]. cbn [pbind]. apply next_got in N as (GB & -> & _).
  assert (FIN : forall (r : rtti) (c' : bool) q, p2 + 1 <= q -> q = o1 ->
     o < o1 /\ exists (r0 : rtti) (c'0 : bool), (do (rc, o) <- Got (Some r, c') q;
       match mark set_by_ref m2 (fst rc) with Some r => Got (r, snd rc) o | None => Bad NullResult end) = Got (Some r0, c'0) o1).
  { intros r c' q Q ->. split; [lia|]. cbn [pbind fst snd mark]. destruct m2; cbn; eauto. }
  destruct (is_simple ty); [intros [= E]; apply FIN; lia|].
  destruct (ty =? kFixedArray).
  { destruct (tryDecodeUint32 t (p2 + 1)) as [ok p4|w] eqn:TR; [|discriminate]. cbn [pbind].
    destruct ok; [|discriminate]. intros V. pose proof (try_lt _ _ _ _ TR).
    assert (B : forall c0, p4 < o1 /\ exists r c', decode t n c0 p4 = Got (Some r, c') o1) by (intros c0; apply IH; [lia|exact V]).
    destruct (B (m || c)%bool) as (LT & r & c' & D).
    assert (SH' : short_numbers t o0 p4) by (intros i I1 I2; apply SH; lia).
    destruct (short_decodeUint32 t _ _ o0 TR SH' ltac:(lia)) as (v & DU). rewrite DU. cbn [pbind]. rewrite D.
    cbn [pbind fst snd]. apply FIN; lia. }
  destruct (ty =? kArray).
  { intros V. destruct (IH (p2 + 1) (m || c)%bool ltac:(lia) V) as (LT & r & c' & D). rewrite D. cbn [pbind fst snd].
    apply FIN; lia. }
  destruct (is_indexed ty).
  { intros TR. pose proof (try_lt _ _ _ _ TR).
    destruct (short_decodeUint32 t _ _ o0 TR SH ltac:(lia)) as (v & DU). rewrite DU. cbn [pbind]. apply FIN; lia. }
  destruct (ty =? kFunction) eqn:KF; [|discriminate]. intros V. exfalso.
  apply Z.eqb_eq in KF. subst ty. apply (NF p2); [|exact GB].
  split; [lia|]. revert V. unfold validateFunction_with. destruct (past_end t (p2 + 1)); [discriminate|].
  destruct (pmatch t kFunction (p2 + 1)) as [m3 p3|w] eqn:P3; [|discriminate]. cbn [pbind]. apply pmatch_got in P3.
  destruct (past_end t p3); [discriminate|]. destruct (next t p3) as [argc p4|w] eqn:N4; [|discriminate]. cbn [pbind].
  apply next_got in N4 as (_ & -> & _). destruct (past_end t (p3 + 1)); [discriminate|].
  destruct (pmatch t kLegacyVariadic (p3 + 1)) as [m5 p5|w] eqn:P5; [|discriminate]. cbn [pbind]. apply pmatch_got in P5.
  destruct (past_end t p5); [discriminate|].
  destruct (pmatch t kVoid p5) as [m6 p6|w] eqn:P6; [|discriminate]. cbn [pbind]. apply pmatch_got in P6.
  assert (A : forall k q, 0 <= q -> validate_args t (validate_loop t n) k q = Got true o1 -> q <= o1).
  { induction k as [|k IHk]; intros q Q0; cbn [validate_args]; [intros [= ->]; lia|].
    destruct (past_end t q); [discriminate|].
    destruct (pmatch t kConst q) as [a1 q1|w] eqn:Q1; [|discriminate]. cbn [pbind]. apply pmatch_got in Q1.
    destruct (past_end t q1); [discriminate|].
    destruct (pmatch t kByRef q1) as [a2 q2|w] eqn:Q2; [|discriminate]. cbn [pbind]. apply pmatch_got in Q2.
    destruct (validate_loop t n q2) as [v q3|w] eqn:Q3; [|discriminate]. cbn [pbind]. destruct v; [|discriminate].
    intros V. assert (q2 <= q3) by (now apply validate_loop_mono in Q3). apply IHk in V; lia. }
  destruct m6; cbn [pbind].
  - intros V. apply A in V; lia.
  - destruct (validate_loop t n p6) as [v p7|w] eqn:P7; [|discriminate]. cbn [pbind]. destruct v; [|discriminate].
    intros V. assert (p6 <= p7) by (now apply validate_loop_mono in P7). apply A in V; lia.
Qed.

Lemma validated_decodeNew t o o1 : no_function t o o1 -> short_numbers t o o1 ->
  validate t o = Got true o1 -> exists r, decodeNew t o = Got (Some r) o1.
Proof.
  intros NF SH V. destruct (validated_decodes t o o1 NF SH (fuel_for t) o false (Z.le_refl o) V) as (_ & r & c & D).
  unfold decodeNew, decodeNew_with. rewrite D. cbn [pbind fst snd mark]. destruct c; cbn; eauto.
Qed.
Lemma validated_typeid t id o1 : validateType t id = Got true o1 ->
  no_function (id_bytes t id) (id_offset id) o1 -> short_numbers (id_bytes t id) (id_offset id) o1 ->
  exists r, typeFromTypeId t id = Got (Some r) o1.
Proof.
  unfold validateType, typeFromTypeId, id_bytes, id_offset.
  destruct (id mod 16 =? kTypeId_Inline); [intros; now apply validated_decodeNew|].
  destruct (_ =? kTypeId_Complex); [|discriminate]. destruct (_ >=? tlen t); [discriminate|].
  intros; now apply validated_decodeNew.
Qed.

(* ---- Refutations ---------------------------------------------------------------------------- *)

Definition int_type : ctype := mkType false Plain LInt.
Definition fifty : csig := mkSig false None (repeat int_type 50).
Lemma fifty_good : good_signature fifty.
Proof.
  split; [vm_compute; reflexivity|]. split; [|exact I].
  apply Forall_forall. intros x H. apply repeat_spec in H. subst. split; [|constructor].
  unfold is_u32, two32; cbn; lia.
Qed.
Lemma fifty_refused : validateTypesetOffset (encode_typeset [fifty]) 0 = Got false 54.
Proof. vm_compute. reflexivity. Qed.

Definition one_arg : csig := mkSig false None [int_type].
Lemma one_arg_good : good_signature one_arg.
Proof. split; [vm_compute; reflexivity|]. split; [|exact I]. repeat constructor; vm_compute; congruence. Qed.
Lemma function_offset : validateFunctionOffset (encode_signature one_arg) 0 = Got true 4 /\
  functionTypeFromOffset (encode_signature one_arg) 0 = Bad OutOfTable.
Proof. split; vm_compute; reflexivity. Qed.

Lemma null_deref : exists t, Forall is_byte t /\ validateFunctionOffset t 0 = Got true (tlen t) /\
  decodeNew t 0 = Bad NullResult.
Proof.
  exists [kFunction; 1; kVoid; kConst; kByRef; kConst; kByRef; kInt32].
  split; [repeat constructor; vm_compute; congruence|]. split; vm_compute; reflexivity.
Qed.
(* A debug variable's type id: kFunction kFunction argc...; the validator takes the second marker for
   the optional one, the decoder takes it for an argument count of 50. *)
Lemma decode_overrun : exists t id, Forall is_byte t /\ validateType t id = Got true (tlen t) /\
  typeFromTypeId t id = Bad OutOfTable.
Proof.
  exists [0; kFunction; kFunction; 0; kVoid], (MakeTypeId 1 kTypeId_Complex).
  split; [repeat constructor; vm_compute; congruence|]. split; vm_compute; reflexivity.
Qed.
Lemma shift_overrun : exists t id, Forall is_byte t /\ validateType t id = Got true (tlen t) /\
  typeFromTypeId t id = Bad ShiftTooFar.
Proof.
  exists [0; kEnum; 128; 128; 128; 128; 128; 0], (MakeTypeId 1 kTypeId_Complex).
  split; [repeat constructor; vm_compute; congruence|]. split; vm_compute; reflexivity.
Qed.
Lemma typeset_shift : exists t, Forall is_byte t /\ validateTypesetOffset t 0 = Bad ShiftTooFar.
Proof.
  exists [128; 128; 128; 128; 128; 0]. split; [repeat constructor; vm_compute; congruence|]. vm_compute. reflexivity.
Qed.
Lemma skip_assert : good_type (mkType true Reference LInt) /\
  validate (encode_type (mkType true Reference LInt)) 0 = Got true 3 /\
  SkipNextType (encode_type (mkType true Reference LInt)) 0 = Bad AssertFailed.
Proof. split; [|split; vm_compute; reflexivity]. split; [vm_compute; intuition congruence | constructor]. Qed.
