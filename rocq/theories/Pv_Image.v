(* Public variables of accepted images. *)
From Coq Require Import String ZifyBool Lia.
From Verif Require Import Base Base_Proofs Rt_Model Img_Model Img_Spec Img_Proofs Img_Accept Img_Cases Pv_Model Pv_Spec.
Local Open Scope string_scope. Local Open Scope list_scope. Local Open Scope Z_scope.
Ltac Zify.zify_post_hook ::= idtac.

(* The table of an accepted image can be read: as many variables as it says, each with the name and address written for it. *)
Lemma table_read im : sound im -> exists img, pubvars_of im = IGood img /\ Z.of_nat (length img) = tb_count (im_pubvars im) /\
  forall i v, nth_error img i = Some v -> exists o, get_pubvar im (Z.of_nat i) = IGood (pv_addr v, o) /\ string_at (im_buf im) o (pv_name v).
Proof.
  intros SO. unfold pubvars_of.
  assert (H : forall n i, 0 <= i -> i + Z.of_nat n <= tb_count (im_pubvars im) -> exists img, table_from im n i = IGood img /\ length img = n /\
    forall j v, nth_error img j = Some v -> exists o, get_pubvar im (i + Z.of_nat j) = IGood (pv_addr v, o) /\ string_at (im_buf im) o (pv_name v)).
  { induction n as [|n IH]; intros i I1 I2; cbn [table_from].
    - exists []. split; [reflexivity|]. split; [reflexivity|]. intros [|j] v; discriminate.
    - destruct (get_pubvar_ok im SO i) as (a & o & s & E & St); [lia|]. rewrite E. cbn [ibind snd fst]. rewrite (cstr_string _ _ _ St). cbn [ibind].
      destruct (IH (i + 1)) as (r & E2 & L & R); [lia|lia|]. rewrite E2. cbn [ibind].
      exists (mkPubvar s a :: r). split; [reflexivity|]. split; [cbn [length]; lia|]. intros [|j] v N.
      + injection N as <-. exists o. rewrite Z.add_0_r. auto.
      + destruct (R j v N) as (o' & G). exists o'. replace (i + Z.of_nat (S j)) with (i + 1 + Z.of_nat j) by lia. exact G. }
  destruct (Z_le_gt_dec 0 (tb_count (im_pubvars im))) as [C|C].
  - destruct (H (Z.to_nat (tb_count (im_pubvars im))) 0) as (img & E & L & R); [lia|lia|]. exists img. split; [exact E|]. split; [lia|].
    intros i v N. exact (R i v N).
  - exfalso. destruct SO as (_ & _ & _ & _ & N & _). destruct N as [N _]. lia.
Qed.

Lemma table_of_accepted inflate fresh stop file im :
  zlib inflate -> allocator fresh -> bytes file -> validate_image inflate fresh stop file = IGood im ->
  exists img, pubvars_of im = IGood img /\ Z.of_nat (length img) = tb_count (im_pubvars im) /\
  forall i v, nth_error img i = Some v -> exists o, get_pubvar im (Z.of_nat i) = IGood (pv_addr v, o) /\ string_at (im_buf im) o (pv_name v).
Proof. intros Z1 A B E. apply table_read. exact (proj1 (validate_sound _ _ _ _ _ Z1 A B E)). Qed.

(* An accepted image that has NULL_VECTOR at address 1000000, and 4 bytes of data. *)
Definition vector_image : list Z := write_image
  [code_sec; data_sec; sec ".names" (str "main" ++ [0] ++ str "NULL_VECTOR" ++ [0]); sec ".pubvars" (le4 1000000 ++ le4 5); sec ".publics" (le4 0 ++ le4 0)].
Lemma vector_undefined : exists im, bytes vector_image /\ run vector_image = IGood im /\ load_image im = IGood (LUndef UBMem).
Proof.
  assert (H : Img_Cases.ask load_image (run vector_image) = Some (IGood (LUndef UBMem))) by (vm_compute; reflexivity).
  apply ask_some in H as (im & E & H). exists im. split; [apply all_bytes_ok; vm_compute; reflexivity|auto].
Qed.
(* The same with address 0 loads. *)
Definition good_image : list Z := write_image
  [code_sec; data_sec; sec ".names" (str "main" ++ [0] ++ str "NULL_VECTOR" ++ [0]); sec ".pubvars" (le4 0 ++ le4 5); sec ".publics" (le4 0 ++ le4 0)].
Lemma good_loads : exists im, run good_image = IGood im /\ load_image im = IGood (Loaded (Some 0) None [mkEntry (Some 0) true]).
Proof.
  assert (H : Img_Cases.ask load_image (run good_image) = Some (IGood (Loaded (Some 0) None [mkEntry (Some 0) true]))) by (vm_compute; reflexivity).
  apply ask_some in H as (im & E & H). exists im. auto.
Qed.
