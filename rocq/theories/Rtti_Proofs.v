From Verif Require Import Base Base_Proofs Pool_Model Pool_Spec Pool_Proofs Rtti_Model Rtti_Spec.
From Coq Require Import ZifyBool.
Ltac Zify.zify_post_hook ::= Z.div_mod_to_equations.

(* ---- Tables ------------------------------------------------------------------------------- *)

Lemma holds_nonneg t o l : holds t o l -> 0 <= o.
Proof. intros (b & _ & <-). lia. Qed.
Lemma holds_len t o l : holds t o l -> tlen t = o + size_of l.
Proof. intros (b & -> & <-). unfold tlen, size_of. rewrite app_length. lia. Qed.
Lemma holds_cons t o x l : holds t o (x :: l) -> getb t o = Some x /\ holds t (o + 1) l.
Proof.
  intros (b & -> & <-). split.
  - unfold getb. replace (_ <? 0) with false by lia. rewrite Nat2Z.id.
    rewrite nth_error_app2 by lia. now rewrite Nat.sub_diag.
  - exists (b ++ [x]). split; [now rewrite <- app_assoc|]. rewrite app_length; cbn; lia.
Qed.
Lemma holds_app t o a l : holds t o (a ++ l) -> holds t (o + size_of a) l.
Proof.
  intros (b & -> & <-). exists (b ++ a). split; [now rewrite <- app_assoc|].
  unfold size_of. rewrite app_length. lia.
Qed.
Lemma holds_0 l : holds l 0 l.
Proof. now exists []. Qed.

Lemma getb_in t o b : getb t o = Some b -> 0 <= o < tlen t.
Proof.
  unfold getb, tlen. destruct (o <? 0) eqn:E; [discriminate|]. intros H.
  assert (nth_error t (Z.to_nat o) <> None) as N by congruence. apply nth_error_Some in N. lia.
Qed.
Lemma getb_some t o : 0 <= o < tlen t -> exists b, getb t o = Some b /\ In b t.
Proof.
  unfold getb, tlen. intros H. replace (o <? 0) with false by lia.
  destruct (nth_error t (Z.to_nat o)) as [b|] eqn:E; [exists b; split; auto; now apply nth_error_In in E|].
  apply nth_error_None in E. lia.
Qed.
Lemma getb_none t o : getb t o = None <-> (o < 0 \/ tlen t <= o).
Proof.
  split.
  - intros H. destruct (Z_lt_le_dec o 0); [auto|]. destruct (Z_lt_le_dec o (tlen t)); [|auto].
    destruct (getb_some t o ltac:(lia)) as (b & E & _). congruence.
  - intros H. destruct (getb t o) eqn:E; [|reflexivity]. apply getb_in in E. lia.
Qed.

Lemma size_app a b : size_of (a ++ b) = size_of a + size_of b.
Proof. unfold size_of. rewrite app_length. lia. Qed.
Lemma size_cons x a : size_of (x :: a) = size_of a + 1.
Proof. unfold size_of. cbn [length]. lia. Qed.
Lemma size_nonneg a : 0 <= size_of a.
Proof. unfold size_of. lia. Qed.

Lemma peek_at t o x l : holds t o (x :: l) -> peek t o = Got x o.
Proof. intros H. unfold peek. now rewrite (proj1 (holds_cons _ _ _ _ H)). Qed.
Lemma next_at t o x l : holds t o (x :: l) -> next t o = Got x (o + 1).
Proof. intros H. unfold next. now rewrite (proj1 (holds_cons _ _ _ _ H)). Qed.
Lemma pmatch_yes t o x l : holds t o (x :: l) -> pmatch t x o = Got true (o + 1).
Proof. intros H. unfold pmatch. rewrite (peek_at _ _ _ _ H). cbn. now rewrite Z.eqb_refl. Qed.
Lemma pmatch_no t o x l b : holds t o (x :: l) -> x <> b -> pmatch t b o = Got false o.
Proof.
  intros H N. unfold pmatch. rewrite (peek_at _ _ _ _ H). cbn.
  now replace (x =? b) with false by lia.
Qed.
Lemma past_end_at t o x l : holds t o (x :: l) -> past_end t o = false.
Proof.
  intros H. apply holds_len in H. rewrite size_cons in H. pose proof (size_nonneg l).
  unfold past_end. lia.
Qed.

(* ---- Compact integers --------------------------------------------------------------------- *)

Lemma lor_add a b n : 0 <= n -> 0 <= a < 2 ^ n -> Z.lor a (b * 2 ^ n) = a + b * 2 ^ n.
Proof.
  intros N A. assert (Z.land a (b * 2 ^ n) = 0) as L.
  { apply Z.bits_inj'. intros k K. rewrite Z.land_spec, Z.bits_0.
    destruct (Z_lt_le_dec k n) as [Q|Q].
    - rewrite Z.mul_pow2_bits_low by lia. apply andb_false_r.
    - replace (Z.testbit a k) with false; [reflexivity|]. symmetry.
      destruct (Z.eq_dec a 0) as [->|Z0]; [apply Z.bits_0|].
      apply Z.bits_above_log2; [lia|]. apply Z.log2_lt_pow2; [lia|].
      eapply Z.lt_le_trans; [apply A|]. apply Z.pow_le_mono_r; lia. }
  rewrite <- Z.lxor_lor by exact L. symmetry. now apply Z.add_nocarry_lxor.
Qed.

Lemma add_bits_spec value b shift : 0 <= shift -> 0 <= value < 2 ^ shift ->
  (b mod 128) * 2 ^ shift < two32 -> 0 <= b ->
  add_bits value b shift = value + (b mod 128) * 2 ^ shift.
Proof.
  intros S V M B. unfold add_bits, u32. rewrite Z.mod_small.
  - now apply lor_add.
  - split; [|exact M]. apply Z.mul_nonneg_nonneg; [lia | apply Z.pow_nonneg; lia].
Qed.

Lemma compact_loop_head k v : exists b l, compact_loop (S k) v = b :: l.
Proof. cbn. eauto. Qed.
Lemma compact_nonempty v : 1 <= size_of (compact v).
Proof. destruct (compact_loop_head 4 v) as (b & l & E). unfold compact. rewrite E, size_cons. pose proof (size_nonneg l). lia. Qed.

(* One round: the byte's low bits, and whether it announces a continuation. *)
Lemma compact_step copy : 0 <= copy ->
  let byte := if copy >? 127 then copy mod 128 + 128 else copy mod 128 in
  0 <= byte < 256 /\ byte mod 128 = copy mod 128 /\ (byte <? 128) = (copy / 128 =? 0).
Proof. intros C. cbv zeta. destruct (copy >? 127) eqn:E; lia. Qed.

(* Shared by the two readers: k rounds left, shift = 7 * (5 - k). *)
Lemma compact_loop_decode t : forall k fuel v value shift o post,
  size_of (compact_loop k v) <= Z.of_nat fuel -> (1 <= k <= 5)%nat -> shift = 7 * (5 - Z.of_nat k) ->
  0 <= v < 2 ^ (32 - shift) -> 0 <= value < 2 ^ shift ->
  holds t o (compact_loop k v ++ post) ->
  decode_loop fuel t value shift o = Got (value + v * 2 ^ shift) (o + size_of (compact_loop k v)) /\
  fast_loop fuel t value shift o = Got (Some (value + v * 2 ^ shift)) (o + size_of (compact_loop k v)) /\
  try_loop fuel t o = Got true (o + size_of (compact_loop k v)).
Proof.
  induction k as [|k IH]; intros fuel v value shift o post F K S V VA H; [lia|].
  cbn [compact_loop] in F. rewrite size_cons in F.
  destruct fuel as [|fuel]; [pose proof (size_nonneg (if v / 128 =? 0 then [] else compact_loop k (v / 128))); lia|].
  destruct (compact_step v ltac:(lia)) as (B1 & B2 & B3). cbv zeta in *.
  cbn [compact_loop] in *. change 0x7f with 127 in *.
  set (byte := if v >? 127 then v mod 128 + 128 else v mod 128) in *.
  rewrite <- app_comm_cons in H.
  assert (SH : 0 <= shift <= 28) by lia.
  assert (P0 : 0 < 2 ^ shift) by (apply Z.pow_pos_nonneg; lia).
  assert (Psplit : 2 ^ (32 - shift) * 2 ^ shift = two32).
  { rewrite <- Z.pow_add_r by lia. replace (32 - shift + shift) with 32 by lia. reflexivity. }
  assert (M : byte mod 128 * 2 ^ shift < two32).
  { rewrite B2. assert (v mod 128 <= v) by (apply Z.mod_le; lia).
    apply Z.le_lt_trans with (v * 2 ^ shift); [apply Z.mul_le_mono_nonneg_r; lia|].
    rewrite <- Psplit. apply Z.mul_lt_mono_pos_r; lia. }
  assert (AB : add_bits value byte shift = value + v mod 128 * 2 ^ shift).
  { rewrite add_bits_spec by lia. now rewrite B2. }
  pose proof (proj2 (holds_cons _ _ _ _ H)) as H'.
  cbn [decode_loop fast_loop try_loop]. unfold fnext.
  assert (PE : (o >=? tlen t) = false) by exact (past_end_at _ _ _ _ H). rewrite PE.
  replace (o <? tlen t) with true by lia.
  rewrite (next_at _ _ _ _ H). cbn [pbind]. replace (shift >=? 32) with false by lia.
  rewrite AB, B3. destruct (v / 128 =? 0) eqn:E.
  - replace (v mod 128) with v by lia. rewrite size_cons. cbn [app] in *. change (size_of []) with 0.
    repeat split; f_equal; lia.
  - rewrite size_cons.
    assert (K1 : (k >= 1)%nat).
    { destruct k; [|lia]. exfalso. assert (shift = 28) by lia. subst shift.
      change (2 ^ (32 - 28)) with 16 in V. lia. }
    assert (P7 : 2 ^ (shift + 7) = 128 * 2 ^ shift) by (rewrite Z.pow_add_r by lia; change (2 ^ 7) with 128; lia).
    assert (V128 : 0 <= v / 128 < 2 ^ (32 - (shift + 7))).
    { split; [lia|]. replace (32 - shift) with (32 - (shift + 7) + 7) in V by lia.
      rewrite Z.pow_add_r in V by lia. change (2 ^ 7) with 128 in V. apply Z.div_lt_upper_bound; lia. }
    assert (VV : 0 <= value + v mod 128 * 2 ^ shift < 2 ^ (shift + 7)).
    { rewrite P7. assert (0 <= v mod 128 <= 127) by lia. nia. }
    assert (SUM : value + v mod 128 * 2 ^ shift + v / 128 * 2 ^ (shift + 7) = value + v * 2 ^ shift).
    { rewrite P7. rewrite (Z.div_mod v 128) at 3 by lia. ring. }
    destruct (IH fuel (v / 128) (value + v mod 128 * 2 ^ shift) (shift + 7) (o + 1) post
      ltac:(lia) ltac:(lia) ltac:(lia) V128 VV H') as (D & FA & TR).
    replace (shift + 7 >=? 32) with false by lia.
    rewrite D, FA, TR, SUM. repeat split; f_equal; lia.
Qed.

Lemma compact_decode t o v post : is_u32 v -> holds t o (compact v ++ post) ->
  decodeUint32 t o = Got v (o + size_of (compact v)) /\
  ReadCompactUint32 t o = Got (Some v) (o + size_of (compact v)) /\
  tryDecodeUint32 t o = Got true (o + size_of (compact v)).
Proof.
  intros V H. pose proof (holds_len _ _ _ H) as HL. rewrite size_app in HL.
  pose proof (size_nonneg post). pose proof (holds_nonneg _ _ _ H).
  unfold decodeUint32, ReadCompactUint32, tryDecodeUint32, compact, tlen in *.
  assert (A : forall fuel, size_of (compact_loop 5 v) <= Z.of_nat fuel ->
     decode_loop fuel t 0 0 o = Got (0 + v * 2 ^ 0) (o + size_of (compact_loop 5 v)) /\
     fast_loop fuel t 0 0 o = Got (Some (0 + v * 2 ^ 0)) (o + size_of (compact_loop 5 v)) /\
     try_loop fuel t o = Got true (o + size_of (compact_loop 5 v))).
  { intros fuel F. apply (compact_loop_decode t 5 fuel v 0 0 o post); auto; try lia. }
  replace (0 + v * 2 ^ 0) with v in A by (change (2 ^ 0) with 1; lia).
  assert (L5 : forall k w, size_of (compact_loop k w) <= Z.of_nat k).
  { induction k; intros w; [cbn; lia|]. cbn [compact_loop]. rewrite size_cons.
    destruct (w / 128 =? 0); [change (size_of []) with 0; lia|]. specialize (IHk (w / 128)). lia. }
  destruct (A 6%nat ltac:(specialize (L5 5%nat v); lia)) as (_ & A2 & _). rewrite A2.
  destruct (A (S (length t)) ltac:(lia)) as (A1 & _ & A3). auto.
Qed.

Lemma compact_bytes v : is_u32 v -> Forall is_byte (compact v).
Proof.
  intros V. unfold compact. assert (0 <= v) as V0 by (unb; lia). clear V. revert v V0.
  generalize 5%nat as k. induction k as [|k IH]; intros v V0; [constructor|].
  cbn [compact_loop]. constructor.
  - apply (compact_step v V0).
  - destruct (v / 128 =? 0); [constructor | apply IH; lia].
Qed.

Lemma compact_prefix_free v w p q : is_u32 v -> is_u32 w -> compact v ++ p = compact w ++ q -> v = w /\ p = q.
Proof.
  intros V W E.
  destruct (compact_decode (compact v ++ p) 0 v p V (holds_0 _)) as (A & _ & _).
  destruct (compact_decode (compact v ++ p) 0 w q W) as (B & _ & _); [rewrite E; apply holds_0|].
  assert (v = w) by congruence. subst w. split; [reflexivity|]. now apply app_inv_head in E.
Qed.

(* ---- Types --------------------------------------------------------------------------------- *)

Definition core (ds : list Z) (l : leaf) : list Z := flat_map encode_dim ds ++ encode_leaf l.

Lemma core_head ds l : exists x rest, core ds l = x :: rest /\
  x <> kConst /\ x <> kByRef /\ x <> kVoid /\ x <> kLegacyVariadic.
Proof.
  unfold core. destruct ds as [|d ds].
  - destruct l; cbn; do 2 eexists; (split; [reflexivity|]);
      unfold kBool, kAny, kChar8, kFloat32, kInt32, kInt64, kTopFunction, kClassdef, kEnumStruct, kEnum,
        kTypeset, kFunctionPtr, kConst, kByRef, kVoid, kLegacyVariadic; lia.
  - cbn [flat_map]. unfold encode_dim at 1. destruct (d =? 0); cbn; do 2 eexists; (split; [reflexivity|]);
      unfold kArray, kFixedArray, kConst, kByRef, kVoid, kLegacyVariadic; lia.
Qed.
Lemma core_size ds l : 1 <= size_of (core ds l).
Proof. destruct (core_head ds l) as (x & r & -> & _). rewrite size_cons. pose proof (size_nonneg r). lia. Qed.

Lemma encode_type_core t : encode_type t =
  (if qual_const t then [kConst] else []) ++
  (match form t with Reference => [kByRef] | _ => [] end) ++ core (dims_of t) (base t).
Proof.
  unfold encode_type, core, dims_of. destruct (form t); cbn [flat_map app]; now rewrite ?app_assoc.
Qed.
Lemma view_core t : view t =
  array_view (dims_of t) (base t) (qual_const t) (match form t with Reference => true | _ => false end).
Proof. unfold view, dims_of. now destruct (form t). Qed.
Lemma encode_type_size t : 1 <= size_of (encode_type t).
Proof.
  rewrite encode_type_core, !size_app. pose proof (core_size (dims_of t) (base t)).
  pose proof (size_nonneg (if qual_const t then [kConst] else [])).
  pose proof (size_nonneg (match form t with Reference => [kByRef] | _ => [] end)). lia.
Qed.

Definition leaf_byte (l : leaf) : Z := leaf_kind l.
Lemma encode_leaf_eq l : encode_leaf l = leaf_kind l :: (if is_simple (leaf_kind l) then [] else compact (leaf_index l)).
Proof. destruct l; reflexivity. Qed.

(* The part of decode after the two marks. *)
Definition decode_body (t : list Z) (n : nat) (c : bool) (o : Z) : pres (option rtti * bool) :=
  do (ty, o) <- next t o;
  (if is_simple ty then Got (Some (Rtti ty 0 None false false false []), c) o
   else if ty =? kFixedArray then
     do (sz, o) <- decodeUint32 t o;
     do (ic, o) <- decode t n c o;
     Got (Some (Rtti ty sz (fst ic) false false false []), snd ic) o
   else if ty =? kArray then
     do (ic, o) <- decode t n c o;
     Got (Some (Rtti ty 0 (fst ic) false false false []), snd ic) o
   else if is_indexed ty then
     do (i, o) <- decodeUint32 t o;
     Got (Some (Rtti ty i None false false false []), c) o
   else if ty =? kFunction then
     do (f, o) <- decodeFunction_with t (decode t n) o; Got (f, c) o
   else Got (None, c) o).

Lemma decode_unfold t n c o : decode t (S n) c o =
  do (m, o) <- pmatch t kConst o;
  do (by_ref, o) <- pmatch t kByRef o;
  do (rc, o) <- decode_body t n (m || c)%bool o;
  match mark set_by_ref by_ref (fst rc) with
  | Some r => Got (r, snd rc) o
  | None => Bad NullResult
  end.
Proof.
  cbn [decode]. unfold decode_body. destruct (pmatch t kConst o) as [m o1|w]; [|reflexivity]. cbn [pbind].
  destruct (pmatch t kByRef o1) as [b o2|w]; [|reflexivity]. cbn [pbind].
  destruct (next t o2) as [ty o3|w]; reflexivity.
Qed.

Lemma holds_fuel t o l fuel : holds t o l -> size_of l < Z.of_nat fuel -> (0 < fuel)%nat.
Proof. pose proof (size_nonneg l). lia. Qed.

Definition core_view ds l := array_view ds l false false.

Lemma decode_body_core t : forall ds l fuel c o post,
  is_u32 (leaf_index l) -> Forall is_u32 ds -> holds t o (core ds l ++ post) ->
  size_of (core ds l ++ post) <= Z.of_nat fuel ->
  decode_body t fuel c o = Got (Some (core_view ds l), c) (o + size_of (core ds l)).
Proof.
  induction ds as [|d ds IH]; intros l fuel c o post LI DI H F.
  - unfold core in *. cbn [flat_map app] in *. rewrite encode_leaf_eq in H |- *.
    rewrite <- app_comm_cons in H. unfold decode_body. rewrite (next_at _ _ _ _ H). cbn [pbind].
    apply holds_cons in H as [_ H]. destruct (is_simple (leaf_kind l)) eqn:SI.
    + unfold core_view. cbn [array_view]. assert (leaf_index l = 0) as -> by (destruct l; try discriminate SI; reflexivity).
      reflexivity.
    + assert ((leaf_kind l =? kFixedArray) = false /\ (leaf_kind l =? kArray) = false /\ is_indexed (leaf_kind l) = true)
        as (-> & -> & ->) by (destruct l; try discriminate SI; auto).
      destruct (compact_decode _ _ _ _ LI H) as (-> & _ & _). cbn [pbind].
      unfold core_view; cbn [array_view]. rewrite size_cons. f_equal. lia.
  - inversion DI as [|? ? D1 D2]; subst. cbn [core_view array_view].
    unfold core in H. cbn [flat_map] in H. rewrite <- !app_assoc in H.
    assert (HS : size_of (core (d :: ds) l) = size_of (encode_dim d) + size_of (core ds l)).
    { unfold core. cbn [flat_map]. rewrite !size_app. lia. }
    rewrite size_app, HS in F. rewrite HS.
    assert (INNER : forall o1, holds t o1 (core ds l ++ post) ->
       forall fuel', size_of (core ds l ++ post) < Z.of_nat fuel' ->
       decode t fuel' c o1 = Got (Some (core_view ds l), c) (o1 + size_of (core ds l))).
    { intros o1 H1 [|n] F1; [pose proof (size_nonneg (core ds l ++ post)); lia|].
      rewrite decode_unfold. destruct (core_head ds l) as (x & r & E & N1 & N2 & _).
      assert (H1' := H1). rewrite E, <- app_comm_cons in H1'.
      rewrite (pmatch_no _ _ _ _ _ H1' N1). cbn [pbind].
      rewrite (pmatch_no _ _ _ _ _ H1' N2). cbn [pbind orb].
      rewrite (IH l n c o1 post LI D2 H1) by lia. reflexivity. }
    unfold decode_body. unfold encode_dim in H, F, HS |- *. unfold dim_kind. destruct (d =? 0) eqn:D0.
    + cbn [app] in H. rewrite (next_at _ _ _ _ H). cbn [pbind]. apply holds_cons in H as [_ H].
      change (is_simple kArray) with false. change (kArray =? kFixedArray) with false.
      change (kArray =? kArray) with true. cbv iota.
      rewrite app_assoc in H. fold (core ds l) in H.
      rewrite (INNER _ H) by (rewrite size_app; change (size_of [kArray]) with 1 in F; lia).
      cbn [pbind fst snd]. assert (d = 0) by lia. subst d. change (size_of [kArray]) with 1.
      f_equal. lia.
    + rewrite <- app_comm_cons in H. rewrite (next_at _ _ _ _ H). cbn [pbind]. apply holds_cons in H as [_ H].
      change (is_simple kFixedArray) with false. change (kFixedArray =? kFixedArray) with true. cbv iota.
      destruct (compact_decode _ _ _ _ D1 H) as (-> & _ & _). cbn [pbind].
      apply holds_app in H. rewrite app_assoc in H. fold (core ds l) in H.
      rewrite size_cons in F.
      rewrite (INNER _ H) by (rewrite size_app; pose proof (size_nonneg (compact d)); lia).
      cbn [pbind fst snd]. rewrite size_cons. f_equal. lia.
Qed.

(* A type with its marks, started with or without an enclosing const. *)
Lemma decode_type_at t ty fuel c o post : good_type ty -> holds t o (encode_type ty ++ post) ->
  size_of (encode_type ty ++ post) < Z.of_nat fuel ->
  decode t fuel c o =
  Got (Some (array_view (dims_of ty) (base ty) false (match form ty with Reference => true | _ => false end)),
       (qual_const ty || c)%bool) (o + size_of (encode_type ty)).
Proof.
  intros [G1 G2] H F. destruct fuel as [|n]; [pose proof (size_nonneg (encode_type ty ++ post)); lia|].
  rewrite decode_unfold. rewrite encode_type_core in *. rewrite !size_app in *.
  destruct (core_head (dims_of ty) (base ty)) as (x & r & E & N1 & N2 & _).
  assert (S1 : exists o1, pmatch t kConst o = Got (qual_const ty) o1 /\
     o1 = o + size_of (if qual_const ty then [kConst] else []) /\
     holds t o1 ((match form ty with Reference => [kByRef] | _ => [] end) ++ core (dims_of ty) (base ty) ++ post)).
  { destruct (qual_const ty).
    - cbn [app] in H. rewrite (pmatch_yes _ _ _ _ H). apply holds_cons in H as [_ H]. rewrite <- app_assoc in H. eauto.
    - cbn [app] in H. rewrite <- app_assoc in H. exists o. change (size_of []) with 0. rewrite Z.add_0_r.
      split; [|auto]. destruct (form ty); cbn [app] in H.
      + rewrite E, <- app_comm_cons in H. apply (pmatch_no _ _ _ _ _ H N1).
      + apply (pmatch_no _ _ _ _ _ H). discriminate.
      + rewrite E, <- app_comm_cons in H. apply (pmatch_no _ _ _ _ _ H N1). }
  destruct S1 as (o1 & -> & O1 & H1). cbn [pbind].
  set (rf := match form ty with Reference => true | _ => false end).
  assert (S2 : exists o2, pmatch t kByRef o1 = Got rf o2 /\
     o2 = o1 + size_of (match form ty with Reference => [kByRef] | _ => [] end) /\
     holds t o2 (core (dims_of ty) (base ty) ++ post)).
  { unfold rf. destruct (form ty); cbn [app] in H1.
    - exists o1. change (size_of []) with 0. rewrite Z.add_0_r. split; [|auto].
      rewrite E, <- app_comm_cons in H1. apply (pmatch_no _ _ _ _ _ H1 N2).
    - rewrite (pmatch_yes _ _ _ _ H1). apply holds_cons in H1 as [_ H1]. eauto.
    - exists o1. change (size_of []) with 0. rewrite Z.add_0_r. split; [|auto].
      rewrite E, <- app_comm_cons in H1. apply (pmatch_no _ _ _ _ _ H1 N2). }
  destruct S2 as (o2 & -> & O2 & H2). cbn [pbind].
  pose proof (size_nonneg (if qual_const ty then [kConst] else [])).
  pose proof (size_nonneg (match form ty with Reference => [kByRef] | _ => [] end)).
  rewrite (decode_body_core t _ _ n _ o2 post G1 G2 H2) by (rewrite size_app; lia). cbn [pbind fst snd].
  replace (o2 + size_of (core (dims_of ty) (base ty))) with
     (o + (size_of (if qual_const ty then [kConst] else []) +
       (size_of match form ty with Reference => [kByRef] | _ => [] end + size_of (core (dims_of ty) (base ty))))) by lia.
  unfold mark, core_view. destruct rf; [|reflexivity].
  destruct (dims_of ty); reflexivity.
Qed.

Lemma decodeNew_type_at t ty fuel o post : good_type ty -> holds t o (encode_type ty ++ post) ->
  size_of (encode_type ty ++ post) < Z.of_nat fuel ->
  decodeNew_with (decode t fuel) o = Got (Some (view ty)) (o + size_of (encode_type ty)).
Proof.
  intros G H F. unfold decodeNew_with. rewrite (decode_type_at t ty fuel false o post G H F).
  cbn [pbind fst snd]. rewrite orb_false_r, view_core. unfold mark. destruct (qual_const ty); [|reflexivity].
  destruct (dims_of ty); reflexivity.
Qed.

(* The same type with its by-reference mark already consumed: decodeFunction's loop. *)
Lemma decode_arg_at t ty fuel o post : good_type ty -> holds t o (encode_type ty ++ post) ->
  size_of (encode_type ty ++ post) < Z.of_nat fuel ->
  exists b o1 a, pmatch t kByRef o = Got b o1 /\ decodeNew_with (decode t fuel) o1 = Got a (o + size_of (encode_type ty)) /\
  mark set_by_ref b a = Some (Some (view ty)).
Proof.
  intros G H F. destruct (core_head (dims_of ty) (base ty)) as (x & r & E & N1 & N2 & _).
  destruct (qual_const ty) eqn:Q.
  - exists false, o, (Some (view ty)). split; [|split; [now apply (decodeNew_type_at t ty fuel o post)|reflexivity]].
    unfold encode_type in H. rewrite Q in H. cbn [app] in H. apply (pmatch_no _ _ _ _ _ H). discriminate.
  - destruct (form ty) eqn:FO.
    + exists false, o, (Some (view ty)). split; [|split; [now apply (decodeNew_type_at t ty fuel o post)|reflexivity]].
      rewrite encode_type_core, Q, FO in H. cbn [app] in H. rewrite E, <- app_comm_cons in H.
      apply (pmatch_no _ _ _ _ _ H N2).
    + set (ty' := mkType false Plain (base ty)).
      assert (V : view ty = set_by_ref (view ty')).
      { unfold view, ty'. rewrite FO, Q. reflexivity. }
      assert (EN : encode_type ty = kByRef :: encode_type ty').
      { unfold encode_type, ty'. rewrite FO, Q. reflexivity. }
      rewrite EN, <- app_comm_cons in H. rewrite EN, <- app_comm_cons, size_cons in F.
      exists true, (o + 1), (Some (view ty')). split; [now apply (pmatch_yes _ _ _ _ H)|].
      apply holds_cons in H as [_ H]. split; [|now rewrite V].
      rewrite EN, size_cons. replace (o + (size_of (encode_type ty') + 1)) with (o + 1 + size_of (encode_type ty')) by lia.
      apply (decodeNew_type_at t ty' fuel (o + 1) post); [|exact H|lia].
      destruct G as [G1 _]. split; [exact G1|constructor].
    + exists false, o, (Some (view ty)). split; [|split; [now apply (decodeNew_type_at t ty fuel o post)|reflexivity]].
      rewrite encode_type_core, Q, FO in H. cbn [app] in H. rewrite E, <- app_comm_cons in H.
      apply (pmatch_no _ _ _ _ _ H N2).
Qed.

Lemma decode_args_at t fuel : forall tys o post, Forall good_type tys ->
  holds t o (flat_map encode_type tys ++ post) -> size_of (flat_map encode_type tys ++ post) < Z.of_nat fuel ->
  decode_args t (decode t fuel) (length tys) o =
  Got (map (fun a => Some (view a)) tys) (o + size_of (flat_map encode_type tys)).
Proof.
  induction tys as [|ty tys IH]; intros o post G H F.
  - cbn. f_equal. change (size_of []) with 0. lia.
  - inversion G as [|? ? G1 G2]; subst. cbn [flat_map] in *. rewrite <- app_assoc in H, F.
    destruct (decode_arg_at t ty fuel o _ G1 H F) as (b & o1 & a & P & D & M).
    cbn [length decode_args]. rewrite P. cbn [pbind]. rewrite D. cbn [pbind]. rewrite M.
    apply holds_app in H. rewrite size_app in F. pose proof (size_nonneg (encode_type ty)).
    rewrite (IH _ _ G2 H) by lia. cbn [pbind map]. f_equal. rewrite size_app. lia.
Qed.

Lemma encode_type_head t : exists x rest, encode_type t = x :: rest /\ x <> kVoid /\ x <> kLegacyVariadic.
Proof.
  rewrite encode_type_core. destruct (core_head (dims_of t) (base t)) as (x & r & -> & _ & _ & N3 & N4).
  destruct (qual_const t); [|destruct (form t)]; cbn [app]; do 2 eexists; (split; [reflexivity|]);
    unfold kConst, kByRef, kVoid, kLegacyVariadic in *; lia.
Qed.
Lemma encode_return_head r : exists x rest, encode_return r = x :: rest /\ x <> kLegacyVariadic.
Proof.
  destruct r as [t|]; cbn [encode_return]; [|do 2 eexists; split; [reflexivity|discriminate]].
  destruct (encode_type_head t) as (x & r & -> & _ & N). eauto.
Qed.

(* A signature without its leading marker. *)
Definition sig_body (s : csig) : list Z := List.tl (encode_signature s).
Lemma sig_body_eq s : encode_signature s = kFunction :: sig_body s.
Proof. reflexivity. Qed.

Lemma decodeFunction_at t s fuel o post : good_signature s -> holds t o (sig_body s ++ post) ->
  size_of (sig_body s ++ post) <= Z.of_nat fuel ->
  decodeFunction_with t (decode t fuel) o = Got (Some (view_signature s)) (o + size_of (sig_body s)).
Proof.
  intros (A & G & R) H F. unfold sig_body, encode_signature in *. cbn [List.tl] in *.
  set (na := Z.of_nat (length (sig_args s))) in *.
  rewrite <- app_comm_cons, <- !app_assoc in H. rewrite <- app_comm_cons, size_cons, !size_app in F.
  rewrite size_cons, !size_app.
  unfold decodeFunction_with. rewrite (next_at _ _ _ _ H). cbn [pbind]. apply holds_cons in H as [_ H].
  destruct (encode_return_head (sig_return s)) as (x & r & E & N).
  pose proof (size_nonneg (flat_map encode_type (sig_args s))).
  pose proof (size_nonneg (if sig_variadic s then [kLegacyVariadic] else [])).
  pose proof (size_nonneg (encode_return (sig_return s))). pose proof (size_nonneg post).
  assert (S1 : exists o1, pmatch t kLegacyVariadic (o + 1) = Got (sig_variadic s) o1 /\
     o1 = o + 1 + size_of (if sig_variadic s then [kLegacyVariadic] else []) /\
     holds t o1 (encode_return (sig_return s) ++ flat_map encode_type (sig_args s) ++ post)).
  { destruct (sig_variadic s); cbn [app] in H.
    - rewrite (pmatch_yes _ _ _ _ H). apply holds_cons in H as [_ H]. eauto.
    - exists (o + 1). change (size_of []) with 0. rewrite Z.add_0_r. split; [|auto].
      rewrite E, <- app_comm_cons in H. apply (pmatch_no _ _ _ _ _ H N). }
  destruct S1 as (o1 & -> & O1 & HH). cbn [pbind].
  assert (S2 : exists v o2, pmatch t kVoid o1 = Got v o2 /\
     (if v then Got (Some (Rtti kVoid 0 None false false false [])) o2 else decodeNew_with (decode t fuel) o2) =
     Got (Some (view_return (sig_return s))) (o1 + size_of (encode_return (sig_return s)))).
  { destruct (sig_return s) as [rt|]; cbn [encode_return view_return] in *.
    - exists false, o1. destruct (encode_type_head rt) as (y & q & E' & N' & _).
      split; [rewrite E', <- app_comm_cons in HH; apply (pmatch_no _ _ _ _ _ HH N')|].
      apply (decodeNew_type_at t rt fuel o1 _ R HH). rewrite !size_app. lia.
    - exists true, (o1 + 1). cbn [app] in HH. split; [apply (pmatch_yes _ _ _ _ HH)|reflexivity]. }
  destruct S2 as (v & o2 & -> & S2). cbn [pbind]. rewrite S2. cbn [pbind].
  apply holds_app in HH. replace (Z.to_nat (na mod 256)) with (length (sig_args s)) by (unfold na in *; lia).
  rewrite (decode_args_at t fuel _ _ _ G HH) by (rewrite size_app; lia). cbn [pbind].
  unfold view_signature. f_equal. lia.
Qed.

Lemma decode_signature_at t s fuel o post : good_signature s -> holds t o (encode_signature s ++ post) ->
  size_of (encode_signature s ++ post) < Z.of_nat fuel ->
  decodeNew_with (decode t fuel) o = Got (Some (view_signature s)) (o + size_of (encode_signature s)).
Proof.
  intros G H F. rewrite sig_body_eq in *. rewrite <- app_comm_cons in *. rewrite size_cons in F.
  destruct fuel as [|n]; [pose proof (size_nonneg (sig_body s ++ post)); lia|].
  unfold decodeNew_with. rewrite decode_unfold.
  rewrite (pmatch_no _ _ _ _ _ H) by discriminate. cbn [pbind].
  rewrite (pmatch_no _ _ _ _ _ H) by discriminate. cbn [pbind orb].
  unfold decode_body. rewrite (next_at _ _ _ _ H). cbn [pbind]. apply holds_cons in H as [_ H].
  change (is_simple kFunction) with false. change (kFunction =? kFixedArray) with false.
  change (kFunction =? kArray) with false. change (is_indexed kFunction) with false.
  change (kFunction =? kFunction) with true. cbv iota.
  rewrite (decodeFunction_at t s n _ post G H) by lia. cbn [pbind fst snd mark]. f_equal.
  rewrite size_cons. lia.
Qed.

Lemma decode_sigs_at t : forall sigs fuel o post, Forall good_signature sigs ->
  holds t o (flat_map encode_signature sigs ++ post) -> (length sigs < fuel)%nat ->
  decode_sigs t fuel (Z.of_nat (length sigs)) o =
  Got (map (fun s => Some (view_signature s)) sigs) (o + size_of (flat_map encode_signature sigs)).
Proof.
  induction sigs as [|s sigs IH]; intros fuel o post G H F; (destruct fuel as [|fuel]; [lia|]).
  - cbn. f_equal. change (size_of []) with 0. lia.
  - inversion G as [|? ? G1 G2]; subst. cbn [flat_map] in *. rewrite <- app_assoc in H. cbn [length] in F. cbn [length decode_sigs].
    replace (Z.of_nat (S (length sigs)) <=? 0) with false by lia.
    pose proof (holds_len _ _ _ H) as HL. pose proof (holds_nonneg _ _ _ H).
    unfold decodeNew. rewrite (decode_signature_at t s _ o _ G1 H) by (unfold fuel_for, tlen in *; lia).
    cbn [pbind]. apply holds_app in H.
    replace (Z.of_nat (S (length sigs)) - 1) with (Z.of_nat (length sigs)) by lia.
    rewrite (IH _ _ _ G2 H) by lia. cbn [pbind map]. f_equal. rewrite size_app. lia.
Qed.

(* ---- The validator accepts what the compiler writes ---------------------------------------- *)

Definition validate_body (t : list Z) (n : nat) (o : Z) : pres bool :=
  if past_end t o then Got false o else
  do (ty, o) <- next t o;
  if is_simple ty then Got true o
  else if ty =? kFixedArray then
    do (ok, o) <- tryDecodeUint32 t o;
    if ok : bool then validate_loop t n o else Got false o
  else if ty =? kArray then validate_loop t n o
  else if is_indexed ty then tryDecodeUint32 t o
  else if ty =? kFunction then validateFunction_with t (validate_loop t n) o
  else Got false o.

Lemma validate_unfold t n o : validate_loop t (S n) o =
  if past_end t o then Got false o else
  do (_m, o) <- pmatch t kConst o;
  if past_end t o then Got false o else
  do (_m, o) <- pmatch t kByRef o;
  validate_body t n o.
Proof. reflexivity. Qed.

Lemma validate_body_core t : forall ds l fuel o post,
  is_u32 (leaf_index l) -> Forall is_u32 ds -> holds t o (core ds l ++ post) ->
  size_of (core ds l ++ post) <= Z.of_nat fuel ->
  validate_body t fuel o = Got true (o + size_of (core ds l)).
Proof.
  induction ds as [|d ds IH]; intros l fuel o post LI DI H F.
  - unfold core in *. cbn [flat_map app] in *. rewrite encode_leaf_eq in H |- *.
    rewrite <- app_comm_cons in H. unfold validate_body.
    rewrite (past_end_at _ _ _ _ H), (next_at _ _ _ _ H). cbn [pbind].
    apply holds_cons in H as [_ H]. destruct (is_simple (leaf_kind l)) eqn:SI; [reflexivity|].
    assert ((leaf_kind l =? kFixedArray) = false /\ (leaf_kind l =? kArray) = false /\ is_indexed (leaf_kind l) = true)
      as (-> & -> & ->) by (destruct l; try discriminate SI; auto).
    destruct (compact_decode _ _ _ _ LI H) as (_ & _ & ->). rewrite size_cons. f_equal. lia.
  - inversion DI as [|? ? D1 D2]; subst.
    unfold core in H. cbn [flat_map] in H. rewrite <- !app_assoc in H.
    assert (HS : size_of (core (d :: ds) l) = size_of (encode_dim d) + size_of (core ds l)).
    { unfold core. cbn [flat_map]. rewrite !size_app. lia. }
    rewrite size_app, HS in F. rewrite HS.
    assert (INNER : forall o1, holds t o1 (core ds l ++ post) ->
       forall fuel', size_of (core ds l ++ post) < Z.of_nat fuel' ->
       validate_loop t fuel' o1 = Got true (o1 + size_of (core ds l))).
    { intros o1 H1 [|n] F1; [pose proof (size_nonneg (core ds l ++ post)); lia|].
      rewrite validate_unfold. destruct (core_head ds l) as (x & r & E & N1 & N2 & _).
      assert (H1' := H1). rewrite E, <- app_comm_cons in H1'.
      rewrite (past_end_at _ _ _ _ H1').
      rewrite (pmatch_no _ _ _ _ _ H1' N1). cbn [pbind]. rewrite (past_end_at _ _ _ _ H1').
      rewrite (pmatch_no _ _ _ _ _ H1' N2). cbn [pbind].
      apply (IH l n o1 post LI D2 H1). lia. }
    unfold validate_body. unfold encode_dim in H, F, HS |- *. destruct (d =? 0) eqn:D0.
    + cbn [app] in H. rewrite (past_end_at _ _ _ _ H), (next_at _ _ _ _ H). cbn [pbind].
      apply holds_cons in H as [_ H].
      change (is_simple kArray) with false. change (kArray =? kFixedArray) with false.
      change (kArray =? kArray) with true. cbv iota.
      rewrite app_assoc in H. fold (core ds l) in H.
      rewrite (INNER _ H) by (rewrite size_app; change (size_of [kArray]) with 1 in F; lia).
      change (size_of [kArray]) with 1. f_equal. lia.
    + rewrite <- app_comm_cons in H. rewrite (past_end_at _ _ _ _ H), (next_at _ _ _ _ H). cbn [pbind].
      apply holds_cons in H as [_ H].
      change (is_simple kFixedArray) with false. change (kFixedArray =? kFixedArray) with true. cbv iota.
      destruct (compact_decode _ _ _ _ D1 H) as (_ & _ & ->). cbn [pbind].
      apply holds_app in H. rewrite app_assoc in H. fold (core ds l) in H.
      rewrite size_cons in F.
      rewrite (INNER _ H) by (rewrite size_app; pose proof (size_nonneg (compact d)); lia).
      rewrite size_cons. f_equal. lia.
Qed.

(* Skipping the two marks, as both validate and validateFunction's loop do. *)
Lemma marks_at t ty o post : holds t o (encode_type ty ++ post) ->
  exists o1 b1 o2 b2, pmatch t kConst o = Got b1 o1 /\ pmatch t kByRef o1 = Got b2 o2 /\
    past_end t o = false /\ past_end t o1 = false /\
    holds t o2 (core (dims_of ty) (base ty) ++ post) /\
    o2 + size_of (core (dims_of ty) (base ty)) = o + size_of (encode_type ty) /\ o <= o2.
Proof.
  intros H. destruct (core_head (dims_of ty) (base ty)) as (x & r & E & N1 & N2 & _).
  rewrite encode_type_core in *.
  assert (EX : forall p, holds t p (core (dims_of ty) (base ty) ++ post) ->
            pmatch t kConst p = Got false p /\ pmatch t kByRef p = Got false p /\ past_end t p = false).
  { intros p HP. rewrite E, <- app_comm_cons in HP.
    rewrite (pmatch_no _ _ _ _ _ HP N1), (pmatch_no _ _ _ _ _ HP N2), (past_end_at _ _ _ _ HP). auto. }
  set (c := core (dims_of ty) (base ty)) in *.
  destruct (qual_const ty); [|]; destruct (form ty); cbn [app] in *; rewrite ?size_cons;
    repeat match goal with
    | H : holds t ?p (kConst :: ?l) |- _ =>
        pose proof (pmatch_yes _ _ _ _ H); pose proof (past_end_at _ _ _ _ H); apply holds_cons in H as [_ H]
    | H : holds t ?p (kByRef :: ?l) |- _ =>
        pose proof (pmatch_yes _ _ _ _ H); pose proof (past_end_at _ _ _ _ H);
        pose proof (pmatch_no _ _ _ _ kConst H ltac:(discriminate)); apply holds_cons in H as [_ H]
    end; pose proof (EX _ H) as (X1 & X2 & X3); do 4 eexists;
    (split; [eassumption|]; split; [eassumption|]; split; [eassumption|]; split; [eassumption|];
     split; [eassumption|]; lia).
Qed.

Lemma validate_type_at t ty fuel o post : good_type ty -> holds t o (encode_type ty ++ post) ->
  size_of (encode_type ty ++ post) < Z.of_nat fuel ->
  validate_loop t fuel o = Got true (o + size_of (encode_type ty)).
Proof.
  intros [G1 G2] H F. destruct fuel as [|n]; [pose proof (size_nonneg (encode_type ty ++ post)); lia|].
  destruct (marks_at t ty o post H) as (o1 & b1 & o2 & b2 & P1 & P2 & E1 & E2 & H2 & S & L).
  rewrite validate_unfold, E1, P1. cbn [pbind]. rewrite E2, P2. cbn [pbind].
  rewrite (validate_body_core t _ _ n o2 post G1 G2 H2); [f_equal; exact S|].
  rewrite size_app in *. lia.
Qed.

Lemma validate_args_at t fuel : forall tys o post, Forall good_type tys ->
  holds t o (flat_map encode_type tys ++ post) -> size_of (flat_map encode_type tys ++ post) < Z.of_nat fuel ->
  validate_args t (validate_loop t fuel) (length tys) o = Got true (o + size_of (flat_map encode_type tys)).
Proof.
  induction tys as [|ty tys IH]; intros o post G H F.
  - cbn. f_equal. change (size_of []) with 0. lia.
  - inversion G as [|? ? [G1 G1'] G2]; subst. cbn [flat_map] in *. rewrite <- app_assoc in H, F.
    destruct (marks_at t ty o _ H) as (o1 & b1 & o2 & b2 & P1 & P2 & E1 & E2 & H2 & S & L).
    cbn [length validate_args]. rewrite E1, P1. cbn [pbind]. rewrite E2, P2. cbn [pbind].
    set (ty' := mkType false (match dims_of ty with [] => Plain | d :: ds => Arrays d ds end) (base ty)).
    assert (EN : encode_type ty' = core (dims_of ty) (base ty)).
    { rewrite encode_type_core. unfold ty', dims_of; cbn. now destruct (form ty). }
    assert (G' : good_type ty').
    { split; [exact G1|]. unfold ty', dims_of in *; cbn. destruct (form ty); auto. }
    rewrite <- EN in H2, S. rewrite size_app in F. pose proof (size_nonneg (encode_type ty)).
    rewrite (validate_type_at t ty' fuel o2 _ G' H2) by (rewrite size_app; lia). cbn [pbind].
    rewrite S. apply holds_app in H. rewrite (IH _ _ G2 H) by lia. f_equal. rewrite size_app. lia.
Qed.

(* After the argument count. *)
Lemma validateFunction_tail t s fuel o post : good_signature s ->
  holds t o ((if sig_variadic s then [kLegacyVariadic] else []) ++
     encode_return (sig_return s) ++ flat_map encode_type (sig_args s) ++ post) ->
  size_of (encode_return (sig_return s)) + size_of (flat_map encode_type (sig_args s)) + size_of post < Z.of_nat fuel ->
  (if past_end t o then Got false o else
   do (_m, o) <- pmatch t kLegacyVariadic o;
   if past_end t o then Got false o else
   do (void, o) <- pmatch t kVoid o;
   do (v, o) <- (if void : bool then Got true o else validate_loop t fuel o);
   if v : bool then validate_args t (validate_loop t fuel) (length (sig_args s)) o else Got false o) =
  Got true (o + size_of (if sig_variadic s then [kLegacyVariadic] else []) + size_of (encode_return (sig_return s))
              + size_of (flat_map encode_type (sig_args s))).
Proof.
  intros (A & G & R) H F. destruct (encode_return_head (sig_return s)) as (x & r & E & N).
  pose proof (size_nonneg (flat_map encode_type (sig_args s))).
  pose proof (size_nonneg (encode_return (sig_return s))). pose proof (size_nonneg post).
  assert (S1 : exists b o1, pmatch t kLegacyVariadic o = Got b o1 /\ past_end t o = false /\
     o1 = o + size_of (if sig_variadic s then [kLegacyVariadic] else []) /\
     holds t o1 (encode_return (sig_return s) ++ flat_map encode_type (sig_args s) ++ post)).
  { destruct (sig_variadic s); cbn [app] in H.
    - rewrite (pmatch_yes _ _ _ _ H), (past_end_at _ _ _ _ H). apply holds_cons in H as [_ H].
      do 2 eexists. split; [reflexivity|]. auto.
    - exists false, o. change (size_of []) with 0. rewrite Z.add_0_r.
      assert (H' := H). rewrite E, <- app_comm_cons in H'.
      rewrite (past_end_at _ _ _ _ H'). split; [apply (pmatch_no _ _ _ _ _ H' N) | auto]. }
  destruct S1 as (b & o1 & -> & -> & O1 & HH). cbn [pbind].
  assert (PE : past_end t o1 = false) by (rewrite E, <- app_comm_cons in HH; apply (past_end_at _ _ _ _ HH)).
  rewrite PE.
  assert (S2 : exists v o2, pmatch t kVoid o1 = Got v o2 /\
     (if v then Got true o2 else validate_loop t fuel o2) =
     Got true (o1 + size_of (encode_return (sig_return s)))).
  { destruct (sig_return s) as [rt|]; cbn [encode_return] in *.
    - exists false, o1. destruct (encode_type_head rt) as (y & q & E' & N' & _).
      split; [rewrite E', <- app_comm_cons in HH; apply (pmatch_no _ _ _ _ _ HH N')|].
      apply (validate_type_at t rt fuel o1 _ R HH). rewrite !size_app. lia.
    - exists true, (o1 + 1). cbn [app] in HH. split; [apply (pmatch_yes _ _ _ _ HH)|reflexivity]. }
  destruct S2 as (v & o2 & -> & S2). cbn [pbind]. rewrite S2. cbn [pbind].
  apply holds_app in HH.
  rewrite (validate_args_at t fuel _ _ _ G HH) by (rewrite size_app; lia). f_equal. lia.
Qed.

Lemma sig_size s post : size_of (encode_signature s ++ post) =
  2 + size_of (if sig_variadic s then [kLegacyVariadic] else []) + size_of (encode_return (sig_return s)) +
  size_of (flat_map encode_type (sig_args s)) + size_of post.
Proof. unfold encode_signature. rewrite <- !app_comm_cons, !size_cons, !size_app. lia. Qed.

Lemma validateFunction_sig_at t s fuel o post : good_signature s -> holds t o (encode_signature s ++ post) ->
  size_of (encode_signature s ++ post) < Z.of_nat fuel ->
  validateFunction_with t (validate_loop t fuel) o = Got true (o + size_of (encode_signature s)).
Proof.
  intros G H F. rewrite sig_size in F. pose proof (sig_size s []) as SZ. rewrite app_nil_r in SZ.
  change (size_of []) with 0 in SZ. unfold encode_signature in H.
  rewrite <- !app_comm_cons, <- !app_assoc in H.
  unfold validateFunction_with. rewrite (past_end_at _ _ _ _ H), (pmatch_yes _ _ _ _ H). cbn [pbind].
  apply holds_cons in H as [_ H]. rewrite (past_end_at _ _ _ _ H), (next_at _ _ _ _ H). cbn [pbind].
  apply holds_cons in H as [_ H].
  replace (Z.to_nat (Z.of_nat (length (sig_args s)) mod 256)) with (length (sig_args s))
    by (destruct G as [G _]; lia).
  pose proof (size_nonneg (if sig_variadic s then [kLegacyVariadic] else [])).
  rewrite (validateFunction_tail t s fuel _ post G H) by lia. f_equal. lia.
Qed.

(* Inside another type the marker has been read already; a count equal to the marker is taken for a
   second marker, so signatures with exactly 50 arguments are excluded. *)
Lemma validate_sig_at t s fuel o post : good_signature s -> Z.of_nat (length (sig_args s)) <> kFunction ->
  holds t o (encode_signature s ++ post) ->
  size_of (encode_signature s ++ post) < Z.of_nat fuel ->
  validate_loop t fuel o = Got true (o + size_of (encode_signature s)).
Proof.
  intros G N50 H F. rewrite sig_size in F. pose proof (sig_size s []) as SZ. rewrite app_nil_r in SZ.
  change (size_of []) with 0 in SZ. unfold encode_signature in H.
  rewrite <- !app_comm_cons, <- !app_assoc in H.
  pose proof (size_nonneg (if sig_variadic s then [kLegacyVariadic] else [])).
  pose proof (size_nonneg (flat_map encode_type (sig_args s))).
  pose proof (size_nonneg (encode_return (sig_return s))). pose proof (size_nonneg post).
  destruct fuel as [|n]; [lia|]. rewrite validate_unfold.
  rewrite (past_end_at _ _ _ _ H), (pmatch_no _ _ _ _ _ H) by discriminate. cbn [pbind].
  rewrite (past_end_at _ _ _ _ H), (pmatch_no _ _ _ _ _ H) by discriminate. cbn [pbind].
  unfold validate_body. rewrite (past_end_at _ _ _ _ H), (next_at _ _ _ _ H). cbn [pbind].
  change (is_simple kFunction) with false. change (kFunction =? kFixedArray) with false.
  change (kFunction =? kArray) with false. change (is_indexed kFunction) with false.
  change (kFunction =? kFunction) with true. cbv iota.
  apply holds_cons in H as [_ H]. unfold validateFunction_with.
  rewrite (past_end_at _ _ _ _ H), (pmatch_no _ _ _ _ _ H) by (destruct G as [G _]; lia). cbn [pbind].
  rewrite (past_end_at _ _ _ _ H), (next_at _ _ _ _ H). cbn [pbind].
  apply holds_cons in H as [_ H].
  replace (Z.to_nat (Z.of_nat (length (sig_args s)) mod 256)) with (length (sig_args s))
    by (destruct G as [G _]; lia).
  rewrite (validateFunction_tail t s n _ post G H) by lia. f_equal. lia.
Qed.

Lemma validate_many_at {A} t (enc : A -> list Z) (good : A -> Prop) :
  (forall x o post, good x -> holds t o (enc x ++ post) -> validate t o = Got true (o + size_of (enc x))) ->
  forall xs fuel o post, Forall good xs -> holds t o (flat_map enc xs ++ post) -> (length xs < fuel)%nat ->
  validate_many t fuel (Z.of_nat (length xs)) o = Got true (o + size_of (flat_map enc xs)).
Proof.
  intros ONE. induction xs as [|x xs IH]; intros fuel o post G H F; (destruct fuel as [|fuel]; [lia|]).
  - cbn. f_equal. change (size_of []) with 0. lia.
  - inversion G as [|? ? G1 G2]; subst. cbn [flat_map] in *. rewrite <- app_assoc in H.
    cbn [length] in F. cbn [length validate_many].
    replace (Z.of_nat (S (length xs)) <=? 0) with false by lia.
    rewrite (ONE x o _ G1 H). cbn [pbind]. apply holds_app in H.
    replace (Z.of_nat (S (length xs)) - 1) with (Z.of_nat (length xs)) by lia.
    rewrite (IH _ _ _ G2 H) by lia. f_equal. rewrite size_app. lia.
Qed.

Lemma flat_map_size {A} (enc : A -> list Z) xs : (forall x, 1 <= size_of (enc x)) ->
  Z.of_nat (length xs) <= size_of (flat_map enc xs).
Proof.
  intros E. induction xs as [|x xs IH]; [cbn; lia|]. cbn [flat_map length]. rewrite size_app.
  specialize (E x). lia.
Qed.

(* ---- Whole tables --------------------------------------------------------------------------- *)

Lemma fuel_enough t o l : holds t o l -> size_of l < Z.of_nat (fuel_for t).
Proof.
  intros H. pose proof (holds_len _ _ _ H). pose proof (holds_nonneg _ _ _ H). unfold fuel_for, tlen in *. lia.
Qed.

Lemma type_round_trip t ty o post : good_type ty -> holds t o (encode_type ty ++ post) ->
  decodeNew t o = Got (Some (view ty)) (o + size_of (encode_type ty)) /\
  validate t o = Got true (o + size_of (encode_type ty)).
Proof.
  intros G H. pose proof (fuel_enough _ _ _ H) as F. split.
  - now apply (decodeNew_type_at t ty (fuel_for t) o post).
  - now apply (validate_type_at t ty (fuel_for t) o post).
Qed.

Lemma signature_round_trip t s o post : good_signature s -> holds t o (encode_signature s ++ post) ->
  validateFunctionOffset t o = Got true (o + size_of (encode_signature s)) /\
  decodeNew t o = Got (Some (view_signature s)) (o + size_of (encode_signature s)) /\
  ReadFunctionSignatureArgCount t o = Got (Some (Z.of_nat (length (sig_args s)))) (o + 2).
Proof.
  intros G H. pose proof (fuel_enough _ _ _ H) as F. split; [|split].
  - now apply (validateFunction_sig_at t s (fuel_for t) o post).
  - now apply (decode_signature_at t s (fuel_for t) o post).
  - unfold encode_signature in H. rewrite <- !app_comm_cons in H.
    unfold ReadFunctionSignatureArgCount, fnext. fold (past_end t o).
    rewrite (past_end_at _ _ _ _ H), (next_at _ _ _ _ H). cbn [pbind].
    change (kFunction =? kFunction) with true. cbv iota. apply holds_cons in H as [_ H].
    fold (past_end t (o + 1)). rewrite (past_end_at _ _ _ _ H), (next_at _ _ _ _ H). cbn [pbind].
    rewrite Z.mod_small by (destruct G as [G _]; lia). f_equal. lia.
Qed.

Lemma encode_signature_size s : 1 <= size_of (encode_signature s).
Proof.
  pose proof (sig_size s []) as E. rewrite app_nil_r in E. rewrite E.
  pose proof (size_nonneg (if sig_variadic s then [kLegacyVariadic] else [])).
  pose proof (size_nonneg (flat_map encode_type (sig_args s))).
  pose proof (size_nonneg (encode_return (sig_return s))). pose proof (size_nonneg []). lia.
Qed.

Lemma typeset_decode t sigs o post : Forall good_signature sigs -> Z.of_nat (length sigs) < two32 ->
  holds t o (encode_typeset sigs ++ post) ->
  typesetTypeFromOffset t o =
    Got (Some (Rtti kTypeset 0 None false false false (map (fun s => Some (view_signature s)) sigs)))
        (o + size_of (encode_typeset sigs)).
Proof.
  intros G C H. unfold encode_typeset in *. rewrite <- app_assoc in H.
  pose proof (fuel_enough _ _ _ H) as F.
  assert (U : is_u32 (Z.of_nat (length sigs))) by (unb; lia).
  destruct (compact_decode _ _ _ _ U H) as (D & _ & _).
  unfold typesetTypeFromOffset, decodeTypeset. rewrite D. cbn [pbind]. apply holds_app in H.
  pose proof (flat_map_size encode_signature sigs encode_signature_size). rewrite !size_app in F.
  pose proof (compact_nonempty (Z.of_nat (length sigs))). pose proof (size_nonneg post).
  rewrite (decode_sigs_at t sigs _ _ post G H) by lia. cbn [pbind]. rewrite size_app. f_equal. lia.
Qed.

Lemma typeset_validate t sigs o post :
  Forall (fun s => good_signature s /\ Z.of_nat (length (sig_args s)) <> kFunction) sigs ->
  Z.of_nat (length sigs) < two32 -> holds t o (encode_typeset sigs ++ post) ->
  validateTypesetOffset t o = Got true (o + size_of (encode_typeset sigs)).
Proof.
  intros G C H. unfold encode_typeset in *. rewrite <- app_assoc in H.
  pose proof (fuel_enough _ _ _ H) as F.
  assert (U : is_u32 (Z.of_nat (length sigs))) by (unb; lia).
  destruct (compact_decode _ _ _ _ U H) as (D & _ & TR).
  unfold validateTypesetOffset, validateTypeset. rewrite TR. cbn [pbind]. rewrite D. cbn [pbind].
  apply holds_app in H. pose proof (flat_map_size encode_signature sigs encode_signature_size).
  rewrite !size_app in F. pose proof (compact_nonempty (Z.of_nat (length sigs))). pose proof (size_nonneg post).
  rewrite (validate_many_at t encode_signature _
    (fun s o post GS HS => validate_sig_at t s (fuel_for t) o post (proj1 GS) (proj2 GS) HS (fuel_enough _ _ _ HS))
    sigs _ _ post G H) by lia.
  rewrite size_app. f_equal. lia.
Qed.

Lemma locals_validate t tys o post : Forall good_type tys -> Z.of_nat (length tys) < 65536 -> 0 < o ->
  holds t o (encode_local_slots tys ++ post) ->
  validateLocalSlots t o = Got true (o + size_of (encode_local_slots tys)) /\
  ReadLocalSlotCount t o = Got (Some (Z.of_nat (length tys))) (o + 3).
Proof.
  intros G C O H. unfold encode_local_slots in *. rewrite <- !app_comm_cons in H.
  pose proof (fuel_enough _ _ _ H) as F. pose proof (holds_len _ _ _ H) as HL.
  pose proof (flat_map_size encode_type tys encode_type_size). rewrite !size_cons, ?size_app in *.
  pose proof (size_nonneg post). pose proof (size_nonneg (flat_map encode_type tys)).
  unfold validateLocalSlots, ReadLocalSlotCount, fnext. replace (o =? 0) with false by lia.
  replace ((o >=? tlen t) || (tlen t - o <? 3)) with false by lia.
  replace (o >=? tlen t) with false by lia.
  rewrite (next_at _ _ _ _ H). cbn [pbind]. apply holds_cons in H as [_ H].
  change (kLocalSlots =? kLocalSlots) with true. cbn [negb]. cbv iota.
  replace (o + 1 >=? tlen t) with false by lia.
  rewrite (next_at _ _ _ _ H). cbn [pbind]. apply holds_cons in H as [_ H].
  replace (o + 1 + 1 >=? tlen t) with false by lia.
  rewrite (next_at _ _ _ _ H). cbn [pbind]. apply holds_cons in H as [_ H].
  set (n := Z.of_nat (length tys)) in *.
  replace (n mod 256 + 256 * ((n / 256) mod 256)) with n by lia.
  split; [|f_equal; lia]. unfold n.
  rewrite (validate_many_at t encode_type good_type
    (fun s o post GS HS => validate_type_at t s (fuel_for t) o post GS HS (fuel_enough _ _ _ HS)) tys _ _ post G H)
    by (unfold n in *; lia).
  f_equal. lia.
Qed.
