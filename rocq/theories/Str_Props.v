(* C07, C08: copying host strings into plugin memory. *)
From Verif Require Import Base Rt_Model Str_Model Str_Spec Str_Proofs.

(* Copying into a buffer: at most n bytes are written, they are a prefix of the source of at most n-1
   bytes, as long as possible, and a terminator; nothing else changes.  The bytes written must lie in
   memory, which the code leaves to its caller. *)
Theorem C07_copy_partial s a n src : plugin_address s a -> 0 <= n -> a + Z.min n (Z.of_nat (length src) + 1) <= mem_size s ->
  exists s', StringToLocal a n src s = Ok tt s' /\
    if n =? 0 then s' = s else copied s s' a (firstn (Z.to_nat (n - 1)) src).
Proof. exact (copy_ok s a n src). Qed.
Print Assumptions C07_copy_partial.

(* An address outside the plugin's memory, or between heap and stack, is refused by every function
   the host converts addresses with, and nothing changes. *)
Theorem C07_bad_address s a n src : ~ plugin_address s a ->
  StringToLocal a n src s = Fail INVALID_ADDRESS s /\ StringToLocalUTF8 a n src s = Fail INVALID_ADDRESS s /\
  LocalToString a s = Fail INVALID_ADDRESS s.
Proof. exact (copy_refused s a n src). Qed.
Print Assumptions C07_bad_address.

(* Only the first byte of the buffer is checked: a buffer that starts inside memory is written past its end. *)
Theorem C07_buffer_end_refuted : exists s a n src, plugin_address s a /\ c_string src /\ StringToLocal a n src s = UB UBMem.
Proof. exact past_end_exists. Qed.
Print Assumptions C07_buffer_end_refuted.

(* Buffers of two bytes or more receive the longest prefix of whole characters that fits in n-1 bytes,
   and its length is reported.  Missing: buffers of one byte and an empty text at address zero, where
   it is false (below). *)
Theorem C08_whole_characters_partial s a n chars : let src := concat chars in
  plugin_address s a -> utf8_text chars -> 2 <= n -> n < two63 -> mem_size s < two31 ->
  a + Z.min n (Z.of_nat (length src) + 1) <= mem_size s -> (src = [] -> 0 < a) ->
  exists s' text, StringToLocalUTF8 a n src s = Ok (Some (Z.of_nat (length text))) s' /\
    longest_fit chars (n - 1) text /\ copied_within s s' a text (Z.min n (Z.of_nat (length src) + 1)).
Proof. exact (utf8_ok s a n chars). Qed.
Print Assumptions C08_whole_characters_partial.

(* A one-byte buffer after a byte with its high bit set: the byte before the buffer is overwritten, the
   buffer is not terminated and the reported length is 2^64-1. *)
Theorem C08_one_byte_refuted : exists s a chars, plugin_address s a /\ utf8_text chars /\ a + 1 <= data_size s /\
  exists s', StringToLocalUTF8 a 1 (concat chars) s = Ok (Some (two64 - 1)) s' /\
    mem s' (a - 1) <> mem s (a - 1) /\ mem s' a <> 0.
Proof. exact one_byte_exists. Qed.
Print Assumptions C08_one_byte_refuted.

(* Bytes that are not UTF-8, cut where no character starts: the byte before the buffer is overwritten
   and the buffer is left without a terminator. *)
Theorem C07_utf8_invalid_refuted : exists s a src, plugin_address s a /\ c_string src /\ a + 2 <= data_size s /\
  exists s', StringToLocalUTF8 a 2 src s = Ok (Some (two64 - 1)) s' /\ mem s' (a - 1) <> mem s (a - 1) /\ mem s' a <> 0 /\ mem s' (a + 1) <> 0.
Proof. exact invalid_exists. Qed.
Print Assumptions C07_utf8_invalid_refuted.

(* An empty text copied to address zero reads the byte before the plugin's memory. *)
Theorem C08_empty_refuted : exists s, plugin_address s 0 /\ StringToLocalUTF8 0 4 (concat []) s = UB UBMem.
Proof. exact (ex_intro _ demo empty_at_start). Qed.
Print Assumptions C08_empty_refuted.

(* Three characters of one, two and three bytes, in a buffer that ends inside the third. *)
Example C08_case : let chars := [[66]; [0xC3; 0xA9]; [0xE2; 0x82; 0xAC]] in
  plugin_address demo 0 /\ utf8_text chars /\ 0 + Z.min 6 (Z.of_nat (length (concat chars)) + 1) <= mem_size demo /\
  mem_size demo < two31 /\ longest_fit chars (6 - 1) [66; 0xC3; 0xA9] /\
  (match StringToLocalUTF8 0 6 (concat chars) demo with
   | Ok (Some n) s' => (n =? 3) && (mem s' 0 =? 66) && (mem s' 3 =? 0) | _ => false end) = true.
Proof.
  cbv zeta. split; [exact (proj1 empty_at_start)|]. split.
  { apply Forall_cons; [apply u1; lia|]. apply Forall_cons; [apply u2; unfold continues; lia|].
    apply Forall_cons; [apply u3; unfold continues; lia|apply Forall_nil]. }
  split; [vm_compute; discriminate|]. split; [vm_compute; reflexivity|]. split; [|vm_compute; reflexivity].
  exists 2%nat. split; [cbn; lia|]. split; [reflexivity|]. split; [cbn; lia|]. right. cbn. lia.
Qed.
