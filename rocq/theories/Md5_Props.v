(* C36: the hash of a plugin does not depend on how it is fed. *)
From Verif Require Import Base Md5_Model Md5_Spec Md5_Proofs.

(* However the data is cut into pieces, every call succeeds inside the buffers it was given and the
   digest is the published MD5 of the concatenation. *)
Theorem C36_any_pieces junk pieces : length junk = 64%nat -> Forall is_byte junk -> chunks_ok [] pieces ->
  exists m m', feed (init junk) pieces = Some m /\ finalize m = Some m' /\ digest m' = MD5 (concat pieces).
Proof. exact (hash_chunks junk pieces). Qed.
Print Assumptions C36_any_pieces.

(* As the runtime uses it: one piece of any length the 32-bit length argument can hold. *)
Theorem C36_one_piece junk data : length junk = 64%nat -> Forall is_byte junk ->
  Forall is_byte data -> Z.of_nat (length data) < two32 ->
  exists m m', update (init junk) data = Some m /\ finalize m = Some m' /\ digest m' = MD5 data.
Proof. exact (hash_one junk data). Qed.
Print Assumptions C36_one_piece.

(* The condition on near-4GiB pieces is needed: the loop index wraps and the input is overrun. *)
Theorem C36_all_pieces_refuted junk : length junk = 64%nat -> Forall is_byte junk ->
  exists first second m, Forall is_byte first /\ Forall is_byte second /\
    Z.of_nat (length first) < two32 /\ Z.of_nat (length second) < two32 /\
    update (init junk) first = Some m /\ update m second = None.
Proof. exact (huge_piece junk). Qed.
Print Assumptions C36_all_pieces_refuted.

Example C36_case : chunks_ok [] [[97]; []; repeat 98 100; [99]; repeat 100 64].
Proof.
  cbn [chunks_ok]. unfold chunk_ok, two32. repeat split; try (repeat constructor; unfold is_byte; lia); try (vm_compute; reflexivity);
    left; vm_compute; discriminate.
Qed.
