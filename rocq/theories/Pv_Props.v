(* C59: public variables are where the image says. *)
From Verif Require Import Base Rt_Model Img_Model Img_Spec Pv_Model Pv_Spec Pv_Cases.
From Verif Require Img_Cases Pv_Proofs Pv_Image.

(* Of an image whose public variables are in its data section: it loads, the null vector is the variable of that name, and every
   request of a host gets the right answer, whatever was asked before and whatever the heap and the stack have become.  Missing: other
   images, below. *)
Theorem C59_found_partial : forall img data size, within data img -> data <= size < two31 ->
  exists vec s c, initialize img data size = Loaded vec s c /\ address_of img NULL_VECTOR vec /\
  forall h, Forall (fun q => at_work data size (fst q)) h -> Forall2 (fun q a => right img (fst q) (snd q) a) h (asks img s c h).
Proof. exact Pv_Proofs.history_right. Qed.
Print Assumptions C59_found_partial.
Example C59_found_example : within 32 the_image /\ Forall (fun q => at_work 32 16416 (fst q)) the_requests.
Proof. exact (conj the_within the_work). Qed.
Example C59_found_answers : match initialize the_image 32 16416 with
  | Loaded vec s c => vec = Some 12 /\ s = Some 24 /\
      asks the_image s c the_requests = [APtr (Some 0); APtr (Some 0); APtr (Some 8); AIndex 2; ANo ENotFound; AAddr 12 12;
        ANo EIndex; APtr None; APtr (Some 28); ANo EAddress]
  | LUndef _ => False end.
Proof. exact the_answers. Qed.

(* Of any image: asked for the address of a variable, the host gets the variable's own, and only if it can be used then. *)
Theorem C59_address : forall img L i, match addrs img L i with
  | inl (a, p) => exists v, nth_error img i = Some v /\ a = wrap32 (pv_addr v) /\ p = a /\ usable L a
  | inr EIndex => (length img <= i)%nat
  | inr EAddress => exists v, nth_error img i = Some v /\ ~ usable L (wrap32 (pv_addr v))
  | inr ENotFound => False
  end.
Proof. exact Pv_Proofs.addrs_right. Qed.
Print Assumptions C59_address.

(* An address that is not in memory is refused once only: asked again, the host is told it was found, and given a null pointer. *)
Theorem C59_refused_refuted : exists img L v, nth_error img 0 = Some v /\ ~ usable L (pv_addr v) /\
  asks img None [mkEntry None false] [(L, ByIndex 0); (L, ByIndex 0)] = [ANo EAddress; APtr None].
Proof. exact (ex_intro _ outside (ex_intro _ (initial 32 16416) (ex_intro _ (mkPubvar [120] 1000000) (conj eq_refl twice)))). Qed.
Print Assumptions C59_refused_refuted.
(* An image that is accepted, and has such an address for NULL_VECTOR: loading it is undefined. *)
Theorem C59_load_refuted : exists file im, bytes file /\ validate_image Img_Cases.no_inflate Img_Cases.zeros false file = IGood im /\
  load_image im = IGood (LUndef UBMem).
Proof. exact (ex_intro _ Pv_Image.vector_image Pv_Image.vector_undefined). Qed.
Print Assumptions C59_load_refuted.
(* A variable whose cell goes over the end of memory is given. *)
Theorem C59_whole_cell_refuted : exists img data size v c, nth_error img 0 = Some v /\
  by_index img (initial data size) [mkEntry None false] 0 = (inl (Some (pv_addr v)), c) /\ size < pv_addr v + 4.
Proof. exact cell_outside. Qed.
Print Assumptions C59_whole_cell_refuted.

(* Of any accepted image: the table can be read, has as many variables as the image says, and each has the name and the address
   the image gives. *)
Theorem C59_table : forall inflate fresh stop file im,
  zlib inflate -> allocator fresh -> bytes file -> validate_image inflate fresh stop file = IGood im ->
  exists img, pubvars_of im = IGood img /\ Z.of_nat (length img) = tb_count (im_pubvars im) /\
  forall i v, nth_error img i = Some v -> exists o, get_pubvar im (Z.of_nat i) = IGood (pv_addr v, o) /\ string_at (im_buf im) o (pv_name v).
Proof. exact Pv_Image.table_of_accepted. Qed.
Print Assumptions C59_table.
Example C59_table_example : exists im, validate_image Img_Cases.no_inflate Img_Cases.zeros false Pv_Image.good_image = IGood im /\
  load_image im = IGood (Loaded (Some 0) None [mkEntry (Some 0) true]).
Proof. exact Pv_Image.good_loads. Qed.
