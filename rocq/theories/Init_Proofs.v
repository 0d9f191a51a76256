From Verif Require Import Base Base_Proofs Rt_Model Array_Model Interp_Model Rt_Spec Rt_Proofs Array_Spec
  Hist_Proofs Array_Proofs Array_Exec Init_Spec.
From Coq Require Import ZifyBool.
Ltac Zify.zify_post_hook ::= Z.div_mod_to_equations.

Lemma copy_ivs_ok n : forall dst src arr m s,
  0 <= src -> src + 4 * Z.of_nat n <= dst -> dst + 4 * Z.of_nat n <= mem_size s ->
  exists m', copy_ivs n dst src arr (set_mem m s) = Ok tt (set_mem m' s) /\
    outside m m' dst (dst + 4 * Z.of_nat n) /\
    forall k, 0 <= k < Z.of_nat n -> load32 m' (dst + 4 * k) = wrap32 (load32 m (src + 4 * k) + arr).
Proof.
  induction n as [|n IH]; intros dst src arr m s H1 H2 H3.
  - exists m. split; [reflexivity|]. split; [apply outside_refl|]. intros; lia.
  - cbn [copy_ivs].
    erewrite bind_ok by (unfold rd32; rewrite in_mem_true by (wsimp; lia); reflexivity). wsimp.
    erewrite bind_ok by (apply wr32_ok; wsimp; lia). rewrite set_mem_mem, set_mem_set.
    set (m1 := store32 m dst (wrap32 (load32 m src + arr))).
    destruct (IH (dst + 4) (src + 4) arr m1 s) as (m' & E & O & R); try lia.
    exists m'. split; [exact E|]. split.
    + intros x Hx. rewrite O by lia. apply store32_out. lia.
    + intros k Hk. destruct (Z.eq_dec k 0) as [->|].
      * replace (dst + 4 * 0) with dst by lia. replace (src + 4 * 0) with src by lia.
        rewrite (load32_ext _ m1) by (intros x Hx; apply O; lia). unfold m1. rewrite load32_store32_same.
        apply wrap32_id, wrap32_range.
      * replace (dst + 4 * k) with (dst + 4 + 4 * (k - 1)) by lia. rewrite R by lia. f_equal. f_equal.
        replace (src + 4 + 4 * (k - 1)) with (src + 4 * k) by lia.
        apply load32_ext. intros x Hx. apply store32_out. lia.
Qed.

Lemma fill_cells_ok n : forall dst v m s, is_i32 v -> 0 <= dst -> dst + 4 * Z.of_nat n <= mem_size s ->
  exists m', fill_cells n dst v (set_mem m s) = Ok tt (set_mem m' s) /\
    outside m m' dst (dst + 4 * Z.of_nat n) /\
    forall k, 0 <= k < Z.of_nat n -> load32 m' (dst + 4 * k) = v.
Proof.
  induction n as [|n IH]; intros dst v m s Hv H1 H2.
  - exists m. split; [reflexivity|]. split; [apply outside_refl|]. intros; lia.
  - cbn [fill_cells].
    erewrite bind_ok by (apply wr32_ok; wsimp; lia). rewrite set_mem_mem, set_mem_set.
    destruct (IH (dst + 4) v (store32 m dst v) s) as (m' & E & O & R); try lia; auto.
    exists m'. split; [exact E|]. split.
    + intros x Hx. rewrite O by lia. apply store32_out. lia.
    + intros k Hk. destruct (Z.eq_dec k 0) as [->|].
      * replace (dst + 4 * 0) with dst by lia.
        rewrite (load32_ext _ (store32 m dst v)) by (intros x Hx; apply O; lia). rewrite load32_store32_same.
        now apply wrap32_id.
      * replace (dst + 4 * k) with (dst + 4 + 4 * (k - 1)) by lia. apply R. lia.
Qed.

Lemma clear_ok a n m s : 0 <= a -> 0 <= n -> a + n <= mem_size s ->
  exists m', clear a n (set_mem m s) = Ok tt (set_mem m' s) /\ outside m m' a (a + n) /\
    forall k, a <= k -> k + 4 <= a + n -> load32 m' k = 0.
Proof.
  intros H1 H2 H3. unfold clear. destruct (n <=? 0) eqn:E.
  - exists m. split; [reflexivity|]. split; [apply outside_refl|]. intros; lia.
  - exists (fill_bytes m a n 0). rewrite in_mem_true by (wsimp; lia). wsimp. split; [reflexivity|]. split.
    + intros x Hx. unfold fill_bytes. destruct ((a <=? x) && (x <? a + n)) eqn:B; lia.
    + intros k K1 K2. rewrite (load32_ext _ (fun _ => 0)); [reflexivity|].
      intros x Hx. unfold fill_bytes. destruct ((a <=? x) && (x <? a + n)) eqn:B; lia.
Qed.

Lemma move_ok d a n m s : 0 <= a -> 0 <= d -> 0 <= n -> a + n <= mem_size s -> d + n <= mem_size s ->
  exists m', move d a n (set_mem m s) = Ok tt (set_mem m' s) /\ outside m m' d (d + n) /\
    forall k, 0 <= k -> k + 4 <= n -> load32 m' (d + k) = load32 m (a + k).
Proof.
  intros H1 H2 H3 H4 H5. unfold move. destruct (n <=? 0) eqn:E.
  - exists m. split; [reflexivity|]. split; [apply outside_refl|]. intros; lia.
  - exists (move_bytes m d a n). rewrite !in_mem_true by (wsimp; lia). wsimp. cbn [andb]. split; [reflexivity|]. split.
    + intros x Hx. unfold move_bytes. destruct ((d <=? x) && (x <? d + n)) eqn:B; lia.
    + intros k K1 K2.
      assert (X : forall i, 0 <= i < 4 -> move_bytes m d a n (d + k + i) = m (a + k + i)).
      { intros i Hi. unfold move_bytes. replace ((d <=? d + k + i) && (d + k + i <? d + n)) with true by lia. f_equal. lia. }
      unfold load32. pose proof (X 0 ltac:(lia)) as X0. rewrite !Z.add_0_r in X0.
      rewrite X0, (X 1), (X 2), (X 3) by lia. reflexivity.
Qed.

Section Init.
Variables (s : rt) (arr dat iv copy fill v : Z).
Hypothesis HI : I s.
Hypothesis Ha : arr mod 4 = 0.
Hypothesis Hd : dat mod 4 = 0.
Hypothesis Hm : mem_size s mod 4 = 0.
Hypothesis Hz : data_size s mod 4 = 0.
Hypothesis Hai : is_i32 arr.
Hypothesis Hdi : is_i32 dat.
Hypothesis Hv : is_i32 v.
Hypothesis Hiv : 0 <= iv.
Hypothesis Hcp : 0 <= copy.
Hypothesis Hfl : 0 <= fill.
Hypothesis Hhp : data_size s <= hp s.
Hypothesis Hdst : data_size s <= arr.

Lemma init_bounds : 0 <= data_size s /\ mem_size s + 128 <= two31 /\ data_size s + 16384 <= mem_size s.
Proof. destruct HI as [L P]. destruct L. lia. Qed.

Lemma init_ok : init_fits s arr dat iv copy fill ->
  exists m', initArray arr dat iv copy fill v s = Ok tt (set_mem m' s) /\
    materialised (mem s) m' arr dat iv copy fill v.
Proof.
  intros (F1 & F2 & F3 & F4 & F5). pose proof init_bounds as HB.
  assert (Es : s = set_mem (mem s) s) by (destruct s; reflexivity).
  unfold initArray.
  assert (Hb : local_bad s arr = false).
  { unfold local_bad. rewrite u32_id by (unfold is_u32, two31, two32 in *; lia). lia. }
  erewrite bind_ok by (unfold LocalToPhysAddr; rewrite Hb; reflexivity).
  erewrite bind_ok by reflexivity.
  unfold throw_if at 1. replace (_ >=? mem_size s) with false by lia. erewrite bind_ok by reflexivity.
  set (m0 := mem s) in *.
  assert (X : exists m1,
    (if (iv =? 0) && (copy =? 0) then ret tt
     else
       tpl <- LocalToPhysAddr dat;;
       (let tpl_data := tpl + 4 * iv in
       throw_if (tpl_data + 4 * copy - 4 >=? data_size s) INVALID_ADDRESS;;;
       copy_ivs (Z.to_nat iv) arr tpl arr;;;
       move (arr + 4 * iv) tpl_data (copy * 4))) s = Ok tt (set_mem m1 s) /\
    outside m0 m1 arr (arr + 4 * (iv + copy)) /\
    (forall k, 0 <= k < iv -> load32 m1 (arr + 4 * k) = wrap32 (load32 m0 (dat + 4 * k) + arr)) /\
    (forall k, iv <= k < iv + copy -> load32 m1 (arr + 4 * k) = load32 m0 (dat + 4 * k))).
  { destruct ((iv =? 0) && (copy =? 0)) eqn:E0.
    - exists m0. split; [unfold ret; congruence|]. split; [apply outside_refl|]. split; intros; lia.
    - destruct F5 as [F5|[F5 F6]]; [lia|].
      assert (Hb2 : local_bad s dat = false).
      { unfold local_bad. rewrite u32_id by (unfold is_u32, two31, two32 in *; lia). lia. }
      erewrite bind_ok by (unfold LocalToPhysAddr; rewrite Hb2; reflexivity).
      unfold throw_if. replace (_ >=? data_size s) with false by lia. erewrite bind_ok by reflexivity.
      destruct (copy_ivs_ok (Z.to_nat iv) arr dat arr m0 s) as (m1 & E1 & O1 & R1); try lia.
      rewrite <- Es in E1. erewrite bind_ok by exact E1.
      destruct (move_ok (arr + 4 * iv) (dat + 4 * iv) (copy * 4) m1 s) as (m2 & E2 & O2 & R2); try lia.
      exists m2. split; [exact E2|]. split.
      { intros x Hx. rewrite O2 by lia. apply O1. lia. } split.
      + intros k Hk. rewrite <- R1 by lia. apply load32_ext. intros x Hx. apply O2. lia.
      + intros k Hk. replace (arr + 4 * k) with (arr + 4 * iv + 4 * (k - iv)) by lia. rewrite R2 by lia.
        replace (dat + 4 * iv + 4 * (k - iv)) with (dat + 4 * k) by lia.
        apply load32_ext. intros x Hx. apply O1. lia. }
  destruct X as (m1 & E1 & O1 & R1 & R2). erewrite bind_ok by exact E1.
  destruct (fill =? 0) eqn:E2.
  - exists m1. split; [reflexivity|]. constructor; auto; [intros; lia|]. intros x Hx. apply O1. lia.
  - assert (Y : exists m2, (if v =? 0 then clear (arr + 4 * iv + 4 * copy) (fill * 4)
        else fill_cells (Z.to_nat fill) (arr + 4 * iv + 4 * copy) v) (set_mem m1 s) = Ok tt (set_mem m2 s) /\
        outside m1 m2 (arr + 4 * (iv + copy)) (arr + 4 * (iv + copy + fill)) /\
        forall k, iv + copy <= k < iv + copy + fill -> load32 m2 (arr + 4 * k) = v).
    { destruct (v =? 0) eqn:E3.
      - destruct (clear_ok (arr + 4 * iv + 4 * copy) (fill * 4) m1 s) as (m2 & X1 & X2 & X3); try lia.
        exists m2. split; [exact X1|]. split; [eapply outside_sub; [exact X2|lia|lia]|].
        intros k Hk. rewrite X3 by lia. lia.
      - destruct (fill_cells_ok (Z.to_nat fill) (arr + 4 * iv + 4 * copy) v m1 s) as (m2 & X1 & X2 & X3); try lia; auto.
        exists m2. split; [exact X1|]. split; [eapply outside_sub; [exact X2|lia|lia]|].
        intros k Hk. rewrite <- (X3 (k - iv - copy)) by lia. f_equal. lia. }
    destruct Y as (m2 & X1 & X2 & X3). exists m2. split; [exact X1|]. constructor; auto.
    + intros k Hk. rewrite <- R1 by lia. apply load32_ext. intros x Hx. apply X2. lia.
    + intros k Hk. rewrite <- R2 by lia. apply load32_ext. intros x Hx. apply X2. lia.
    + intros x Hx. rewrite X2 by lia. apply O1. lia.
Qed.

Lemma init_refused : ~ init_fits s arr dat iv copy fill ->
  initArray arr dat iv copy fill v s = Fail INVALID_ADDRESS s.
Proof.
  intros NF. pose proof init_bounds as HB. unfold init_fits in NF. unfold initArray, bind, LocalToPhysAddr, get, throw_if.
  assert (U : forall a, is_i32 a -> local_bad s a = false -> 0 <= a /\ ~ (hp s <= a < sp s) /\ a < mem_size s).
  { intros a Hi. unfold local_bad. intros B. assert (0 <= a) by lia. rewrite u32_id in B by (unfold is_i32, is_u32, two31, two32 in *; lia). lia. }
  destruct (local_bad s arr) eqn:B1; [reflexivity|]. apply U in B1; auto.
  destruct (_ >=? mem_size s) eqn:B2; [reflexivity|]. cbn [ret].
  destruct ((iv =? 0) && (copy =? 0)) eqn:B3. { exfalso. apply NF. lia. }
  destruct (local_bad s dat) eqn:B4; [reflexivity|]. apply U in B4; auto.
  destruct (_ >=? data_size s) eqn:B5; [reflexivity|]. exfalso. apply NF. lia.
Qed.
End Init.

Lemma exec_init strict fe nat_ mi r dat iv copy fill v s p a :
  exec strict fe nat_ mi (INITARRAY r dat iv copy fill v) (mkIst s p a) =
  match initArray (match r with Pri => p | Alt => a end) dat iv copy fill v s with
  | Ok _ s' => Ok tt (mkIst s' p a) | Fail e s' => Fail e (mkIst s' p a) | UB u => UB u end.
Proof.
  destruct r; cbn [exec]; unfold bind, lift, getr; cbn [rts pri alt];
    destruct (initArray _ dat iv copy fill v s) as [[] ?| |]; reflexivity.
Qed.

Lemma script_init strict fe nat_ mi r dat iv copy fill v s p a (arr := match r with Pri => p | Alt => a end) :
  layout s -> pointers_ok s -> is_i32 (frm s) -> is_i32 (hp_scope s) ->
  mem_size s mod 4 = 0 -> data_size s mod 4 = 0 -> arr mod 4 = 0 -> dat mod 4 = 0 ->
  is_i32 arr -> is_i32 dat -> is_i32 v -> 0 <= iv -> 0 <= copy -> 0 <= fill -> data_size s <= arr ->
  (init_fits s arr dat iv copy fill ->
     exists m', exec strict fe nat_ mi (INITARRAY r dat iv copy fill v) (mkIst s p a) = Ok tt (mkIst (set_mem m' s) p a) /\
       materialised (mem s) m' arr dat iv copy fill v) /\
  (~ init_fits s arr dat iv copy fill ->
     exec strict fe nat_ mi (INITARRAY r dat iv copy fill v) (mkIst s p a) = Fail INVALID_ADDRESS (mkIst s p a)).
Proof.
  intros L P F S Hm Hz Ha Hd Hai Hdi Hv Hiv Hcp Hfl Hdst. assert (HI := ok_I s L P F S).
  assert (Hhp : data_size s <= hp s) by (destruct P; lia).
  rewrite exec_init. fold arr. split; intros HF.
  - destruct (init_ok s arr dat iv copy fill v HI Ha Hd Hm Hz Hv Hiv Hcp Hfl Hhp Hdst HF) as (m' & E & M).
    exists m'. rewrite E. auto.
  - now rewrite init_refused by assumption.
Qed.

(* A template of one indirection cell and three data cells, two cells of fill, on the heap. *)
Lemma init_example : exists s, perform_all [OHeap 24] demo_rt = Ok tt s /\ layout s /\ pointers_ok s /\
  is_i32 (frm s) /\ is_i32 (hp_scope s) /\ mem_size s mod 4 = 0 /\ data_size s mod 4 = 0 /\
  data_size s <= 16 /\ init_fits s 16 0 1 3 2.
Proof.
  exists (run_ops [OHeap 24] demo_rt).
  split. { assert (V : is_ok (perform_all [OHeap 24] demo_rt) = true) by (vm_compute; reflexivity).
    unfold run_ops. destruct (perform_all [OHeap 24] demo_rt) as [[] s'| |]; [reflexivity|discriminate V..]. }
  split. { constructor; vm_compute; (reflexivity || discriminate). }
  split. { constructor; vm_compute; discriminate. }
  unfold is_i32. repeat split; try (vm_compute; (reflexivity || discriminate)).
  - intros [H _]. vm_compute in H. now apply H.
  - right. split; vm_compute; discriminate.
Qed.

Lemma init_unaligned : exists s p, fresh s /\ p mod 4 <> 0 /\
  exec false fe0 (fun _ => None) mi0 (INITARRAY Pri 0 0 0 1 7) (mkIst s p 0) = UB UBMem.
Proof.
  exists demo_rt, (mem_size demo_rt - 3). split; [apply demo_fresh|]. split; vm_compute; (discriminate || reflexivity).
Qed.

(* A destination that starts in an 8-byte heap block and runs over the free gap into the stack. *)
Lemma init_overruns : exists s s' p fill, perform_all [OHeap 8; OPush 1234] demo_rt = Ok tt s /\ pointers_ok s /\
  exec false fe0 (fun _ => None) mi0 (INITARRAY Pri 0 0 0 fill 7) (mkIst s p 0) = Ok tt s' /\
  p + 8 = hp s /\ load32 (mem s) (sp s) = 1234 /\ load32 (mem (rts s')) (sp s) = 7.
Proof.
  set (s := run_ops [OHeap 8; OPush 1234] demo_rt).
  set (r := exec false fe0 (fun _ => None) mi0 (INITARRAY Pri 0 0 0 4096 7) (mkIst s 16 0)).
  assert (V : (match r with Ok _ s' => load32 (mem (rts s')) (sp s) =? 7 | _ => false end) = true)
    by (vm_compute; reflexivity).
  exists s. destruct r as [[] s'| |] eqn:E; [|discriminate V..]. exists s', 16, 4096.
  split. { assert (W : is_ok (perform_all [OHeap 8; OPush 1234] demo_rt) = true) by (vm_compute; reflexivity).
    unfold s, run_ops. destruct (perform_all [OHeap 8; OPush 1234] demo_rt) as [[] ?| |]; [reflexivity|discriminate W..]. }
  split. { constructor; vm_compute; discriminate. }
  split; [exact E|]. split; [vm_compute; reflexivity|]. split; [vm_compute; reflexivity|]. now apply Z.eqb_eq.
Qed.
