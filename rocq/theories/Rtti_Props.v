(* C14, C15, C16: type tables. *)
From Verif Require Import Base Pool_Model Pool_Spec Rtti_Model Rtti_Spec Rtti_Proofs Rtti_Safe.

(* C14.  Each of the VM's readers gives back the integer written and stops right behind it, whatever
   comes before and after. *)
Theorem C14_round_trip : forall t o v rest, is_u32 v -> holds t o (compact v ++ rest) ->
  decodeUint32 t o = Got v (o + size_of (compact v)) /\
  ReadCompactUint32 t o = Got (Some v) (o + size_of (compact v)) /\
  tryDecodeUint32 t o = Got true (o + size_of (compact v)).
Proof. exact compact_decode. Qed.
Print Assumptions C14_round_trip.

(* No encoding is a prefix of another. *)
Theorem C14_prefix_free : forall v w p q, is_u32 v -> is_u32 w ->
  compact v ++ p = compact w ++ q -> v = w /\ p = q.
Proof. exact compact_prefix_free. Qed.
Print Assumptions C14_prefix_free.

Example C14_example : holds [7; 255; 255; 255; 255; 15; 9] 1 (compact 4294967295 ++ [9]).
Proof. exists [7]. split; vm_compute; reflexivity. Qed.

(* C15.  A type written anywhere in a table is read back as that type and passes the validator, both
   stopping right behind it. *)
Theorem C15_type : forall t ty o rest, good_type ty -> holds t o (encode_type ty ++ rest) ->
  decodeNew t o = Got (Some (view ty)) (o + size_of (encode_type ty)) /\
  validate t o = Got true (o + size_of (encode_type ty)).
Proof. exact type_round_trip. Qed.
Print Assumptions C15_type.

(* A function signature passes the validator used for methods, natives and function pointers, its
   argument count is read back, and decoding it gives the signature. *)
Theorem C15_signature : forall t s o rest, good_signature s -> holds t o (encode_signature s ++ rest) ->
  validateFunctionOffset t o = Got true (o + size_of (encode_signature s)) /\
  decodeNew t o = Got (Some (view_signature s)) (o + size_of (encode_signature s)) /\
  ReadFunctionSignatureArgCount t o = Got (Some (Z.of_nat (length (sig_args s)))) (o + 2).
Proof. exact signature_round_trip. Qed.
Print Assumptions C15_signature.

(* Different types and signatures are read as different type objects. *)
Theorem C15_view_injective : (forall a b, view a = view b -> a = b) /\
  (forall a b, view_signature a = view_signature b -> a = b).
Proof. exact (conj view_inj view_signature_inj). Qed.
Print Assumptions C15_view_injective.

(* A set of signatures is decoded to those signatures in order. *)
Theorem C15_typeset : forall t sigs o rest, Forall good_signature sigs -> Z.of_nat (length sigs) < two32 ->
  holds t o (encode_typeset sigs ++ rest) ->
  typesetTypeFromOffset t o =
    Got (Some (Rtti kTypeset 0 None false false false (map (fun s => Some (view_signature s)) sigs)))
        (o + size_of (encode_typeset sigs)).
Proof. exact typeset_decode. Qed.
Print Assumptions C15_typeset.

(* It passes the validator unless some signature has exactly 50 arguments ... *)
Theorem C15_typeset_valid_partial : forall t sigs o rest,
  Forall (fun s => good_signature s /\ Z.of_nat (length (sig_args s)) <> kFunction) sigs ->
  Z.of_nat (length sigs) < two32 -> holds t o (encode_typeset sigs ++ rest) ->
  validateTypesetOffset t o = Got true (o + size_of (encode_typeset sigs)).
Proof. exact typeset_validate. Qed.
Print Assumptions C15_typeset_valid_partial.

(* ... and with 50 arguments it does not: the count byte 0x32 is taken for a second function marker. *)
Theorem C15_fifty_arguments_refuted : exists s, good_signature s /\
  exists o, validateTypesetOffset (encode_typeset [s]) 0 = Got false o.
Proof. exact (ex_intro _ fifty (conj fifty_good (ex_intro _ 54 fifty_refused))). Qed.
Print Assumptions C15_fifty_arguments_refuted.

(* The table of local slots: accepted, and its count is read back. *)
Theorem C15_local_slots : forall t tys o rest, Forall good_type tys -> Z.of_nat (length tys) < 65536 -> 0 < o ->
  holds t o (encode_local_slots tys ++ rest) ->
  validateLocalSlots t o = Got true (o + size_of (encode_local_slots tys)) /\
  ReadLocalSlotCount t o = Got (Some (Z.of_nat (length tys))) (o + 3).
Proof. exact locals_validate. Qed.
Print Assumptions C15_local_slots.

(* Type ids, inline or pooled, after any history of the compiler's pool and any later additions: the
   VM reads back the type and validates the id.  The pool must not have outgrown the 28 bits an id has
   for an offset, nor the 2^31 - 1 bytes a buffer may hold. *)
Theorem C15_type_id : forall past ty later p id,
  good_type ty -> to_typeid (add_all builder_pool past) ty = (p, id) ->
  size (buffer (add_all builder_pool past)) <= kMaxTypeIdPayload ->
  capacity (buffer (add_all builder_pool past)) + size_of (encode_type ty) <= INT_MAX ->
  let t := contents (add_all p later) in
  (exists o, typeFromTypeId t id = Got (Some (view ty)) o) /\ (exists o, validateType t id = Got true o).
Proof. exact typeid_round_trip. Qed.
Print Assumptions C15_type_id.

(* Reading a signature through the function-type entry point fails: it does not skip the marker the
   compiler writes first. *)
Theorem C15_function_entry_point_refuted : exists s, good_signature s /\
  validateFunctionOffset (encode_signature s) 0 = Got true (size_of (encode_signature s)) /\
  functionTypeFromOffset (encode_signature s) 0 = Bad OutOfTable.
Proof. exact (ex_intro _ one_arg (conj one_arg_good function_offset)). Qed.
Print Assumptions C15_function_entry_point_refuted.

(* A const reference is a valid type that the fast reader cannot skip (it asserts). *)
Theorem C15_skip_const_reference_refuted : exists ty, good_type ty /\
  validate (encode_type ty) 0 = Got true (size_of (encode_type ty)) /\
  SkipNextType (encode_type ty) 0 = Bad AssertFailed.
Proof. exact (ex_intro _ (mkType true Reference LInt) skip_assert). Qed.
Print Assumptions C15_skip_const_reference_refuted.

(* The hypotheses are met by a const three-dimensional array of enums and by a variadic signature
   with a by-reference argument; a long type goes through the pool. *)
Definition ex_type : ctype := mkType true (Arrays 0 [5; 300]) (LEnum 1000).
Definition ex_sig : csig := mkSig true (Some int_type) [mkType false Reference LFloat; ex_type].
Example C15_example : good_type ex_type /\ good_signature ex_sig /\
  (let '(p, id) := to_typeid (add_all builder_pool [[1; 2]]) ex_type in
   answer (typeFromTypeId (contents (add_all p [[3]])) id) = Some (Some (view ex_type)) /\ id mod 16 = 1).
Proof.
  assert (G : good_type ex_type) by (split; repeat constructor; vm_compute; intuition congruence).
  split; [exact G|]. split; [|vm_compute; split; reflexivity].
  split; [vm_compute; reflexivity|]. split.
  - constructor; [|constructor; [exact G|constructor]]. split; [vm_compute; intuition congruence|constructor].
  - split; [vm_compute; intuition congruence|constructor].
Qed.

(* C16.  Validation of any type id, function offset and local-slot offset of any table gives a yes or
   no without leaving the table and without running on.  So do the bounds-checked counts. *)
Theorem C16_validation_stays_inside : forall t o id, 0 <= o ->
  answers (validateType t id) /\ answers (validateFunctionOffset t o) /\
  answers (validateLocalSlots t o) /\
  answers (ReadFunctionSignatureArgCount t o) /\ answers (ReadLocalSlotCount t o).
Proof.
  exact (fun t o id O => conj (validateType_answers t id) (conj (validateFunction_answers t o O)
    (conj (validateLocalSlots_answers t o O) (conj (argcount_answers t o O) (slotcount_answers t o O))))).
Qed.
Print Assumptions C16_validation_stays_inside.

(* Validation of a typeset also stays inside the table, but an over-long count is shifted too far. *)
Theorem C16_typeset_partial : forall t o, 0 <= o ->
  answers (validateTypesetOffset t o) \/ validateTypesetOffset t o = Bad ShiftTooFar.
Proof. exact validateTypeset_answers. Qed.
Print Assumptions C16_typeset_partial.
Theorem C16_typeset_refuted : exists t, Forall is_byte t /\ validateTypesetOffset t 0 = Bad ShiftTooFar.
Proof. exact typeset_shift. Qed.
Print Assumptions C16_typeset_refuted.

(* Skipping a type stays inside the table and ends; the only other outcome is the assertion on an
   unknown type byte. *)
Theorem C16_skip : forall t o, 0 <= o -> answers (SkipNextType t o) \/ SkipNextType t o = Bad AssertFailed.
Proof. exact SkipNextType_answers. Qed.
Print Assumptions C16_skip.

(* A type id that validates can be decoded, ending where the validator ended, when the bytes it covers
   have no function marker and no integer longer than five bytes ... *)
Theorem C16_validated_decodes_partial : forall t id o1, validateType t id = Got true o1 ->
  no_function (id_bytes t id) (id_offset id) o1 -> short_numbers (id_bytes t id) (id_offset id) o1 ->
  exists r, typeFromTypeId t id = Got (Some r) o1.
Proof. exact validated_typeid. Qed.
Print Assumptions C16_validated_decodes_partial.

(* ... and not in general: the decoder then reads past the table, shifts too far, or uses a null
   pointer. *)
Theorem C16_decode_leaves_table_refuted : exists t id, Forall is_byte t /\
  validateType t id = Got true (tlen t) /\ typeFromTypeId t id = Bad OutOfTable.
Proof. exact decode_overrun. Qed.
Print Assumptions C16_decode_leaves_table_refuted.
Theorem C16_decode_shift_refuted : exists t id, Forall is_byte t /\
  validateType t id = Got true (tlen t) /\ typeFromTypeId t id = Bad ShiftTooFar.
Proof. exact shift_overrun. Qed.
Print Assumptions C16_decode_shift_refuted.
Theorem C16_decode_null_refuted : exists t, Forall is_byte t /\
  validateFunctionOffset t 0 = Got true (tlen t) /\ decodeNew t 0 = Bad NullResult.
Proof. exact null_deref. Qed.
Print Assumptions C16_decode_null_refuted.

Example C16_example : exists t id o1, validateType t id = Got true o1 /\
  no_function (id_bytes t id) (id_offset id) o1 /\ short_numbers (id_bytes t id) (id_offset id) o1.
Proof.
  exists [0; kConst; kFixedArray; 3; kInt32], (MakeTypeId 1 kTypeId_Complex), 5.
  split; [vm_compute; reflexivity|]. split.
  - change (id_bytes _ _) with [0; kConst; kFixedArray; 3; kInt32]. change (id_offset _) with 1.
    intros i H. assert (i = 1 \/ i = 2 \/ i = 3 \/ i = 4) as [-> | [-> | [-> | ->]]] by lia; vm_compute; congruence.
  - change (id_offset _) with 1. intros i H1 H2. lia.
Qed.
