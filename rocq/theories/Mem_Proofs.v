From Verif Require Import Base Base_Proofs Rt_Model Array_Model Interp_Model Rt_Spec Rt_Proofs Hist_Proofs Mem_Spec.
From Coq Require Import ZifyBool.
Ltac Zify.zify_post_hook ::= Z.div_mod_to_equations.

Lemma set_mem_self s : set_mem (mem s) s = s. Proof. destruct s; reflexivity. Qed.

Lemma byte_of_wrap32 k v : 0 <= k < 4 -> byte_of k (wrap32 v) = byte_of k v.
Proof.
  intros H. assert (K : k = 0 \/ k = 1 \/ k = 2 \/ k = 3) by lia.
  destruct K as [-> | [-> | [-> | ->]]]; rewrite ?byte_of_0, ?byte_of_1, ?byte_of_2, ?byte_of_3; unfold wrap32; unb; lia.
Qed.

Lemma sarith_false z s : sarith false z s = Ok (wrap32 z) s.
Proof.
  unfold sarith. destruct (is_i32b z) eqn:E; [|reflexivity]. unfold is_i32b in E. rewrite wrap32_id; [reflexivity|].
  unfold is_i32. lia.
Qed.
Lemma getFrame_ok s o : layout s -> script_address s (wrap32 (frm s + o)) ->
  getFrameValue o s = Ok (load32 (mem s) (wrap32 (frm s + o))) s.
Proof. intros. rewrite getFrameValue_eq. now apply getCellValue_ok. Qed.
Lemma getFrame_bad s o : ~ script_address s (wrap32 (frm s + o)) -> getFrameValue o s = Fail INVALID_ADDRESS s.
Proof. intros. rewrite getFrameValue_eq. now apply getCellValue_bad. Qed.
Lemma setFrame_ok s o v : layout s -> script_address s (wrap32 (frm s + o)) ->
  setFrameValue o v s = Ok tt (set_mem (store32 (mem s) (wrap32 (frm s + o)) v) s).
Proof. intros. rewrite setFrameValue_eq. now apply setCellValue_ok. Qed.
Lemma setFrame_bad s o v : ~ script_address s (wrap32 (frm s + o)) -> setFrameValue o v s = Fail INVALID_ADDRESS s.
Proof. intros. rewrite setFrameValue_eq. now apply setCellValue_bad. Qed.

Lemma acquire_ok s a n : is_i32 a -> 0 <= n -> n + mem_size s <= two32 -> layout s ->
  Forall (script_address s) (block a n) -> acquireAddrRange a n s = Ok a s.
Proof.
  intros Ha Hn Hm L HB. unfold acquireAddrRange, block in *. destruct (n =? 0) eqn:E.
  - inversion HB; subst. now rewrite (bind_ok _ _ _ _ _ _ a s) by now apply throwIfBadAddress_ok.
  - inversion HB as [|? ? H1 H2]; subst. inversion H2 as [|? ? H3 _]; subst.
    rewrite (bind_ok _ _ _ _ _ _ a s) by now apply throwIfBadAddress_ok.
    destruct H3 as [H3 H4]. destruct L.
    rewrite (wrap32_id (a + n - 1)) by (unfold is_i32; lia).
    erewrite bind_ok; [reflexivity|]. apply throwIfBadAddress_ok. split; auto.
Qed.
Lemma acquire_bad s a n : is_i32 a -> 0 <= n <= mem_size s -> layout s ->
  ~ Forall (script_address s) (block a n) -> acquireAddrRange a n s = Fail INVALID_ADDRESS s.
Proof.
  intros Ha Hn L HB. unfold acquireAddrRange, block in *.
  destruct (script_address_dec s a) as [H1|H1].
  2:{ unfold bind. now rewrite throwIfBadAddress_bad. }
  rewrite (bind_ok _ _ _ _ _ _ a s) by now apply throwIfBadAddress_ok.
  destruct (n =? 0) eqn:E; [exfalso; apply HB; auto|].
  assert (H2 : ~ script_address s (a + n - 1)) by (intros H2; apply HB; auto).
  unfold bind. rewrite throwIfBadAddress_bad; [reflexivity|]. intros [H3 H4]. apply H2.
  destruct H1 as [H1 _], L. assert (X : wrap32 (a + n - 1) = a + n - 1).
  { clear H4. unfold wrap32 in *. unb. lia. }
  rewrite X in *. split; auto.
Qed.

Lemma block_inside s a n : layout s -> 0 <= n -> Forall (script_address s) (block a n) -> 0 <= a /\ a + n <= mem_size s /\ a < stp s /\ a + n <= stp s.
Proof.
  intros L Hn HB. unfold block in HB. destruct L. destruct (n =? 0) eqn:E.
  - inversion HB as [|? ? [H1 _]]; subst. lia.
  - inversion HB as [|? ? [H1 _] H2]; subst. inversion H2 as [|? ? [H3 _]]; subst. lia.
Qed.

Lemma fill_cells_exact n : forall d v m s, 0 <= d -> d + 4 * Z.of_nat n <= mem_size s ->
  exists m', fill_cells n d v (set_mem m s) = Ok tt (set_mem m' s) /\
    forall x, m' x = if (d <=? x) && (x <? d + 4 * Z.of_nat n) then byte_of ((x - d) mod 4) v else m x.
Proof.
  induction n as [|n IH]; intros d v m s H1 H2.
  - exists m. split; [reflexivity|]. intros x. destruct (_ && _) eqn:E; [lia|reflexivity].
  - cbn [fill_cells]. unfold bind, wr32. rewrite in_mem_true by (wsimp; lia). wsimp. change (set_mem ?m' (set_mem m s)) with (set_mem m' s).
    destruct (IH (d + 4) v (store32 m d v) s) as (m' & E & R); try lia.
    exists m'. split; [exact E|]. intros x. rewrite R. unfold store32.
    destruct ((d + 4 <=? x) && (x <? d + 4 + 4 * Z.of_nat n)) eqn:E1.
    + replace ((d <=? x) && (x <? d + 4 * Z.of_nat (S n))) with true by lia. f_equal. lia.
    + destruct ((d <=? x) && (x <? d + 4)) eqn:E2.
      * replace ((d <=? x) && (x <? d + 4 * Z.of_nat (S n))) with true by lia. f_equal. lia.
      * replace ((d <=? x) && (x <? d + 4 * Z.of_nat (S n))) with false by lia. reflexivity.
Qed.

Lemma land255 v : Z.land v 255 = v mod 256. Proof. change 255 with (Z.ones 8). now rewrite Z.land_ones. Qed.
Lemma land65535 v : Z.land v 65535 = v mod 65536. Proof. change 65535 with (Z.ones 16). now rewrite Z.land_ones. Qed.

Section Access.
Variables (fe : fenv) (nat_ : Z -> option native) (mi : meth).

Definition done (st : ist) (acc : access) (r : res ist unit) : Prop :=
  exists m', r = Ok tt (mkIst (set_mem m' (rts st)) (pri_after acc st) (alt_after acc st)) /\
    forall x, m' x = mem_after acc (mem (rts st)) x.
Definition refused (st : ist) (r : res ist unit) : Prop :=
  exists st', r = Fail INVALID_ADDRESS st' /\ rts st' = rts st.

Lemma legal_dec s (l : list Z) : {Forall (script_address s) l} + {~ Forall (script_address s) l}.
Proof. apply Forall_dec. intros a. apply script_address_dec. Qed.

Ltac go := cbn [exec]; unfold so; unfold bind, lift, getr, setr, ret; cbn [rts pri alt].
Ltac inl H := repeat match type of H with
  | Forall _ [] => clear H
  | Forall _ (_ :: _) => let H1 := fresh "A" in let H2 := fresh "H" in
      pose proof (Forall_inv H) as H1; pose proof (Forall_inv_tail H) as H2; clear H; rename H2 into H
  end.
Ltac rd := exists (mem (rts st)).

Lemma modify_mem s a d p q : layout s -> script_address s a ->
  done (mkIst s p q) (Modify a d) (Ok tt (mkIst (set_mem (store32 (mem s) a (wrap32 (load32 (mem s) a + d))) s) p q)).
Proof.
  intros L A. eexists. split; [reflexivity|]. intros x. cbn [mem_after rts]. unfold store32.
  destruct ((a <=? x) && (x <? a + 4)) eqn:E; [|reflexivity]. apply byte_of_wrap32. lia.
Qed.
Lemma modify_at s a d p q : layout s -> script_address s a ->
  done (mkIst s p q) (Modify a d)
    (match match throwIfBadAddress a s with Ok a r => Ok a (mkIst r p q) | Fail e r => Fail e (mkIst r p q) | UB u => UB u end with
     | Ok a0 s' =>
       match match rd32 a0 (rts s') with Ok a r => Ok a (mkIst r (pri s') (alt s')) | Fail e r => Fail e (mkIst r (pri s') (alt s')) | UB u => UB u end with
       | Ok a1 s'0 =>
         match sarith false (a1 + d) s'0 with
         | Ok a2 s'1 => match wr32 a0 a2 (rts s'1) with Ok a3 r => Ok a3 (mkIst r (pri s'1) (alt s'1)) | Fail e r => Fail e (mkIst r (pri s'1) (alt s'1)) | UB u => UB u end
         | Fail e s'1 => Fail e s'1 | UB u => UB u end
       | Fail e s'0 => Fail e s'0 | UB u => UB u end
     | Fail e s' => Fail e s' | UB u => UB u end).
Proof.
  intros L A. rewrite throwIfBadAddress_ok by assumption. cbn [rts pri alt]. assert (A' := A). destruct A' as [B _].
  unfold rd32. rewrite in_mem_true by (destruct L; lia). cbn [rts pri alt]. rewrite sarith_false. cbn [rts pri alt].
  unfold wr32. rewrite in_mem_true by (destruct L; lia). now apply modify_mem.
Qed.

Lemma access_done st i acc : layout (rts st) -> operands_in_range st (snd acc) ->
  access_of mi st i = Some acc -> legal (rts st) acc -> done st (snd acc) (exec false fe nat_ mi i st).
Proof.
  intros L (Hp & Ha & Hn) E HL. destruct st as [s p a]. cbn [rts pri alt] in *. unfold legal in HL.
  destruct i; cbn [access_of] in E; try discriminate E; unfold slot, regv in E; cbn [rts pri alt] in E;
    try (destruct ((_ =? 1) || _ || _) eqn:EW; [|discriminate E]);
    assert (EE := E); apply (f_equal (fun o => match o with Some x => x | None => acc end)) in EE; subst acc; clear E;
    cbn [fst snd checked app] in *.
  all: try (inl HL; go;
    repeat first [ rewrite (getCellValue_ok s) by assumption | rewrite (getFrame_ok s) by assumption
                 | rewrite (setCellValue_ok s) by assumption | rewrite (setFrame_ok s) by assumption ];
    try (exists (mem s); rewrite set_mem_self; unfold pri_after, alt_after; cbn [rts pri alt];
         split; [try destruct r; reflexivity|reflexivity]);
    try (eexists; split; [reflexivity|]; intros x; unfold store32; reflexivity); fail).
  - (* LODB_I *) inl HL. go. rewrite getCellValue_ok by assumption. exists (mem s). rewrite set_mem_self.
    unfold pri_after, alt_after, low; cbn [rts pri alt].
    assert (W : w = 1 \/ w = 2 \/ w = 4) by lia. destruct W as [-> | [-> | ->]]; cbn [Z.eqb Pos.eqb];
      rewrite ?land255, ?land65535; split; reflexivity.
  - (* STRB_I *) inl HL. go. rewrite throwIfBadAddress_ok by assumption. destruct A as [A _].
    assert (W : w = 1 \/ w = 2 \/ w = 4) by lia.
    destruct W as [-> | [-> | ->]]; cbn [Z.eqb Pos.eqb rts pri alt]; unfold wr8, wr16, wr32; rewrite in_mem_true by (destruct L; lia);
      eexists; (split; [reflexivity|]); intros x; cbn [mem_after].
    + unfold fill_bytes. destruct ((a <=? x) && (x <? a + 1)) eqn:B; [|reflexivity].
      replace (x - a) with 0 by lia. now rewrite byte_of_0.
    + cbn [write_bytes]. destruct (x =? a + 1) eqn:B1; [|destruct (x =? a) eqn:B2].
      * replace ((a <=? x) && (x <? a + 2)) with true by lia. f_equal. lia.
      * replace ((a <=? x) && (x <? a + 2)) with true by lia. f_equal. lia.
      * replace ((a <=? x) && (x <? a + 2)) with false by lia. reflexivity.
    + reflexivity.
  - inl HL. go. now apply modify_at.
  - inl HL. go. rewrite getFrame_ok by assumption. cbn [rts pri alt]. rewrite sarith_false. cbn [rts pri alt].
    rewrite setFrame_ok by assumption. now apply modify_mem.
  - inl HL. go. now apply modify_at.
  - inl HL. go. now apply modify_at.
  - inl HL. go. rewrite getFrame_ok by assumption. cbn [rts pri alt]. rewrite sarith_false. cbn [rts pri alt].
    rewrite setFrame_ok by assumption. now apply modify_mem.
  - inl HL. go. now apply modify_at.
  - (* MOVS *) apply Forall_app in HL. destruct HL as [HS HD]. 
    assert (LB : 16384 <= mem_size s /\ mem_size s + 128 <= two31) by (destruct L; lia).
    go. rewrite (u32_id n) by (unfold is_u32, two31, two32 in *; lia).
    rewrite acquire_ok by (auto; unfold two31, two32 in *; lia). cbn [rts pri alt].
    rewrite acquire_ok by (auto; unfold two31, two32 in *; lia). cbn [rts pri alt].
    pose proof (block_inside s p n L ltac:(lia) HS). pose proof (block_inside s a n L ltac:(lia) HD).
    unfold move. destruct (n <=? 0) eqn:E0.
    + exists (mem s). rewrite set_mem_self. split; [reflexivity|]. intros x. cbn [mem_after rts].
      replace ((a <=? x) && (x <? a + n)) with false by lia. reflexivity.
    + rewrite !in_mem_true by lia. eexists. split; [reflexivity|]. reflexivity.
  - (* MOVE_I64 *) apply Forall_app in HL. destruct HL as [HS HD].
    assert (LB : 16384 <= mem_size s /\ mem_size s + 128 <= two31) by (destruct L; lia).
    go. rewrite acquire_ok by (auto; unfold two31, two32 in *; lia). cbn [rts pri alt].
    rewrite acquire_ok by (auto; unfold two31, two32 in *; lia). cbn [rts pri alt].
    pose proof (block_inside s p 8 L ltac:(lia) HS). pose proof (block_inside s a 8 L ltac:(lia) HD).
    unfold rd64. rewrite in_mem_true by lia. cbn [rts pri alt]. unfold wr64. rewrite in_mem_true by lia.
    eexists. split; [reflexivity|]. reflexivity.
  - (* FILL *)
    assert (LB : 16384 <= mem_size s /\ mem_size s + 128 <= two31) by (destruct L; lia).
    go. rewrite (u32_id n) by (unfold is_u32, two31, two32 in *; lia).
    rewrite acquire_ok by (auto; unfold two31, two32 in *; lia). cbn [rts pri alt].
    pose proof (block_inside s a n L ltac:(lia) HL).
    destruct (fill_cells_exact (Z.to_nat (n / 4)) a p (mem s) s) as (m' & E & R); try lia.
    rewrite set_mem_self in E. unfold fill. rewrite E. exists m'. split; [reflexivity|].
    intros x. rewrite R. cbn [mem_after rts]. replace (4 * Z.of_nat (Z.to_nat (n / 4))) with (n / 4 * 4) by lia. reflexivity.
Qed.

Lemma access_refused st i acc : layout (rts st) -> operands_in_range st (snd acc) ->
  access_of mi st i = Some acc -> ~ legal (rts st) acc -> refused st (exec false fe nat_ mi i st).
Proof.
  intros L (Hp & Ha & Hn) E HL. destruct st as [s p a]. cbn [rts pri alt] in *. unfold legal in HL.
  destruct i; cbn [access_of] in E; try discriminate E; unfold slot, regv in E; cbn [rts pri alt] in E;
    try (destruct ((_ =? 1) || _ || _) eqn:EW; [|discriminate E]);
    assert (EE := E); apply (f_equal (fun o => match o with Some x => x | None => acc end)) in EE; subst acc; clear E;
    cbn [fst snd checked app] in *.
  all: try (match type of HL with ~ Forall _ [?x] =>
      assert (A : ~ script_address s x) by (intros A; apply HL; auto); go;
      first [rewrite (getCellValue_bad s) by assumption | rewrite (getFrame_bad s) by assumption
            | rewrite (setCellValue_bad s) by assumption | rewrite (setFrame_bad s) by assumption
            | rewrite (throwIfBadAddress_bad s) by assumption];
      eexists; split; reflexivity end; fail).
  all: try (match type of HL with ~ Forall _ [?x; ?y] =>
      destruct (script_address_dec s x) as [A|A];
      [assert (B : ~ script_address s y) by (intros B; apply HL; auto)|]; go;
      [first [rewrite (getCellValue_ok s) by assumption | rewrite (getFrame_ok s) by assumption]; cbn [rts pri alt];
       first [rewrite (getCellValue_bad s) by assumption | rewrite (getFrame_bad s) by assumption
            | rewrite (setCellValue_bad s) by assumption | rewrite (setFrame_bad s) by assumption]
      |first [rewrite (getCellValue_bad s) by assumption | rewrite (getFrame_bad s) by assumption]];
      eexists; split; reflexivity end; fail).
  all: assert (LB : 16384 <= mem_size s /\ mem_size s + 128 <= two31) by (destruct L; lia).
  - go. rewrite (u32_id n) by (unfold is_u32, two31, two32 in *; lia).
    destruct (legal_dec s (block p n)) as [HS|HS].
    + rewrite acquire_ok by (auto; unfold two31, two32 in *; lia). cbn [rts pri alt].
      rewrite acquire_bad by (auto; intros HD; apply HL; now apply Forall_app). eexists; split; reflexivity.
    + rewrite acquire_bad by auto. eexists; split; reflexivity.
  - go. destruct (legal_dec s (block p 8)) as [HS|HS].
    + rewrite acquire_ok by (auto; unfold two31, two32 in *; lia). cbn [rts pri alt].
      rewrite acquire_bad by (auto; try lia; intros HD; apply HL; now apply Forall_app). eexists; split; reflexivity.
    + rewrite acquire_bad by (auto; lia). eexists; split; reflexivity.
  - go. rewrite (u32_id n) by (unfold is_u32, two31, two32 in *; lia).
    rewrite acquire_bad by auto. eexists; split; reflexivity.
Qed.
End Access.

Lemma touched_inside mi s acc st i : layout s -> rts st = s -> operands_in_range st (snd acc) ->
  access_of mi st i = Some acc -> legal s acc ->
  Forall (fun r => inside s (fst r) (snd r)) (touched (snd acc)).
Proof.
  intros L E (_ & _ & Hn) HA HL. subst s. apply Forall_app in HL. destruct HL as [_ HL].
  assert (X : forall a n, 0 <= n -> Forall (script_address (rts st)) (block a n) -> inside (rts st) a n).
  { intros a n H1 H2. destruct (block_inside _ a n L H1 H2) as (H3 & H4 & _). split; auto. }
  assert (Y : forall a, script_address (rts st) a -> inside (rts st) a 4).
  { intros a [H1 _]. destruct L. split; lia. }
  destruct (snd acc) as [r a|a b|w a|w a v|a d|d a n|d a|d n v] eqn:EA; cbn [touched checked] in *.
  - inversion HL; subst. auto.
  - inversion HL as [|? ? H1 H2]; subst. inversion H2; subst. auto.
  - inversion HL; subst. auto.
  - inversion HL as [|? ? H1 _]; subst. constructor; auto. cbn [fst snd]. destruct (Y a H1).
    assert (0 <= w <= 4); [|split; lia].
    destruct i; cbn [access_of] in HA; try discriminate HA;
      try (destruct ((_ =? 1) || _ || _) eqn:EW; [|discriminate HA]); injection HA as <-; cbn in EA; try discriminate EA;
      injection EA as <- _ _; lia.
  - inversion HL; subst. auto.
  - apply Forall_app in HL. destruct HL. constructor; [|constructor; [|constructor]]; cbn [fst snd]; apply X; auto; lia.
  - apply Forall_app in HL. destruct HL. constructor; [|constructor; [|constructor]]; cbn [fst snd]; apply X; auto; lia.
  - constructor; auto. cbn [fst snd]. apply X; auto; lia.
Qed.

(* Refutations. *)
From Verif Require Import Array_Exec.

(* A block that starts in the heap, spans the gap and ends in the stack. *)
Lemma block_spans_gap : exists s s' n, perform_all [OHeap 8; OPush 1; OPush 2] demo_rt = Ok tt s /\
  pointers_ok s /\ 0 <= n <= mem_size s /\ in_gap s (16 + n / 2) /\
  exec false fe0 (fun _ => None) mi0 (FILL n) (mkIst s 7 16) = Ok tt s' /\
  load32 (mem (rts s')) (16 + n / 2) <> load32 (mem s) (16 + n / 2).
Proof.
  set (s := run_ops [OHeap 8; OPush 1; OPush 2] demo_rt).
  set (r := exec false fe0 (fun _ => None) mi0 (FILL 16376) (mkIst s 7 16)).
  assert (V : (match r with Ok _ s' => load32 (mem (rts s')) (16 + 16376 / 2) =? load32 (mem s) (16 + 16376 / 2) | _ => true end) = false)
    by (vm_compute; reflexivity).
  exists s. destruct r as [[] s'| |] eqn:E; [|discriminate V..]. exists s', 16376.
  split. { assert (W : is_ok (perform_all [OHeap 8; OPush 1; OPush 2] demo_rt) = true) by (vm_compute; reflexivity).
    unfold s, run_ops. destruct (perform_all [OHeap 8; OPush 1; OPush 2] demo_rt) as [[] ?| |]; [reflexivity|discriminate W..]. }
  split. { constructor; vm_compute; discriminate. }
  split. { split; vm_compute; discriminate. }
  split. { split; vm_compute; (reflexivity || discriminate). }
  split; [exact E|]. now apply Z.eqb_neq.
Qed.

(* Zeroing a 64-bit slot whose second half is not addressable: the first half is already gone. *)
Lemma zero64_half : exists s s' o e, fresh demo_rt /\ s = run_ops [OPush 1234] demo_rt /\ pointers_ok s /\
  exec false fe0 (fun _ => None) mi0 (ZERO_S_I64 o) (mkIst s 0 0) = Fail e s' /\
  load32 (mem (rts s')) (sp s) <> load32 (mem s) (sp s).
Proof.
  set (s := run_ops [OPush 1234] demo_rt).
  set (r := exec false fe0 (fun _ => None) mi0 (ZERO_S_I64 (-4)) (mkIst s 0 0)).
  assert (V : (match r with Fail _ s' => load32 (mem (rts s')) (sp s) =? load32 (mem s) (sp s) | _ => true end) = false)
    by (vm_compute; reflexivity).
  exists s. destruct r as [|e s'|] eqn:E; [discriminate V| |discriminate V]. exists s', (-4), e.
  split; [apply demo_fresh|]. split; [reflexivity|].
  split. { constructor; vm_compute; discriminate. }
  split; [exact E|]. now apply Z.eqb_neq.
Qed.

(* A 64-bit store to a frame slot that is not addressable dereferences a null pointer. *)
Lemma int64_slot_null : exists s o, fresh s /\
  exec false fe0 (fun _ => None) mi0 (CVT_I64 o) (mkIst s 0 0) = UB UBMem.
Proof. exists demo_rt, (-4096). split; [apply demo_fresh|]. vm_compute. reflexivity. Qed.

Definition demo_store : ist := mkIst (run_ops [OHeap 8; OPush 1; OPush 2] demo_rt) 77 20.
Lemma access_example : layout (rts demo_store) /\ pointers_ok (rts demo_store) /\
  (exists acc, access_of mi0 demo_store STOR_I = Some acc /\ operands_in_range demo_store (snd acc) /\ legal (rts demo_store) acc) /\
  (exists acc, access_of mi0 demo_store (LOAD Pri 100) = Some acc /\ operands_in_range demo_store (snd acc) /\
     in_gap (rts demo_store) 100 /\ ~ legal (rts demo_store) acc) /\
  (exists acc, access_of mi0 (mkIst (rts demo_store) 0 16) (MOVS 8) = Some acc /\
     operands_in_range (mkIst (rts demo_store) 0 16) (snd acc) /\ legal (rts demo_store) acc).
Proof.
  assert (SA : forall a, bad_address (rts demo_store) a = false -> script_address (rts demo_store) a) by (intros; now apply bad_address_spec).
  split. { constructor; vm_compute; (reflexivity || discriminate). }
  split. { constructor; vm_compute; discriminate. }
  split; [|split].
  - eexists. split; [reflexivity|]. split. { repeat split; vm_compute; (reflexivity || discriminate). }
    repeat constructor; cbn [fst snd app checked]; apply SA; vm_compute; reflexivity.
  - eexists. split; [reflexivity|]. split. { repeat split; vm_compute; (reflexivity || discriminate). }
    assert (G : in_gap (rts demo_store) 100) by (split; vm_compute; (reflexivity || discriminate)).
    split; [exact G|]. intros HL. inversion HL as [|? ? [_ H] _]; subst. now apply H.
  - eexists. split; [reflexivity|]. split. { repeat split; vm_compute; (reflexivity || discriminate). }
    unfold legal. cbn [fst snd app checked block]. change (8 =? 0) with false. cbv iota. cbn [app alt pri].
    repeat (apply Forall_cons; [apply SA; vm_compute; reflexivity|]). constructor.
Qed.
