(* Images and requests for the examples of C59, and the cases in which it fails. *)
From Coq Require Import ZifyBool Lia.
From Verif Require Import Base Rt_Model Img_Model Pv_Model Pv_Spec.
Ltac Zify.zify_post_hook ::= idtac.

(* public int x; NULL_VECTOR; an older x; NULL_STRING; data of 32 bytes, memory of 16416 *)
Definition the_image : list pubvar := [mkPubvar [120] 8; mkPubvar NULL_VECTOR 12; mkPubvar [120] 0; mkPubvar NULL_STRING 24].
Definition grown : limits := mkLimits 400 16000 16416.
Definition the_requests : list (limits * request) :=
  [(initial 32 16416, ByIndex 2); (grown, ByIndex 2); (grown, ByIndex 0); (grown, ByName [120]); (grown, ByName [121]); (grown, Addrs 1);
   (grown, ByIndex 4); (grown, StringAt 24); (grown, StringAt 28); (grown, StringAt 500)].
Lemma the_within : within 32 the_image.
Proof. intros v [<- |[<- |[<- |[<- |[]]]]]; cbn [pv_addr]; lia. Qed.
Lemma the_work : Forall (fun q => at_work 32 16416 (fst q)) the_requests.
Proof. repeat constructor; cbn; lia. Qed.
Lemma the_answers : match initialize the_image 32 16416 with
  | Loaded vec s c => vec = Some 12 /\ s = Some 24 /\
      asks the_image s c the_requests = [APtr (Some 0); APtr (Some 0); APtr (Some 8); AIndex 2; ANo ENotFound; AAddr 12 12;
        ANo EIndex; APtr None; APtr (Some 28); ANo EAddress]
  | LUndef _ => False end.
Proof. vm_compute. repeat split. Qed.

(* An address that is not in the plugin's memory is refused the first time; the second time the host is told it has been found,
   and given a null pointer. *)
Definition outside : list pubvar := [mkPubvar [120] 1000000].
Lemma twice : let L := initial 32 16416 in ~ usable L 1000000 /\
  asks outside None [mkEntry None false] [(L, ByIndex 0); (L, ByIndex 0)] = [ANo EAddress; APtr None].
Proof. split; [unfold usable; cbn; lia|reflexivity]. Qed.
(* With such an address for NULL_VECTOR, loading the plugin reads a pointer that was never set. *)
Lemma null_outside : initialize [mkPubvar NULL_VECTOR 1000000] 32 16416 = LUndef UBMem.
Proof. reflexivity. Qed.
(* A variable whose cell is not all in memory is not refused. *)
Lemma over_the_end : exists c, by_index [mkPubvar [120] 16415] (initial 32 16416) [mkEntry None false] 0 = (inl (Some 16415), c) /\ 16416 < 16415 + 4.
Proof. eexists. split; [reflexivity|lia]. Qed.
Lemma cell_outside : exists img data size v c, nth_error img 0 = Some v /\
  by_index img (initial data size) [mkEntry None false] 0 = (inl (Some (pv_addr v)), c) /\ size < pv_addr v + 4.
Proof.
  destruct over_the_end as (c & E1 & E2). exists [mkPubvar [120] 16415], 32, 16416, (mkPubvar [120] 16415), c.
  split; [reflexivity|]. split; [exact E1|exact E2].
Qed.
