From Verif Require Import Base Base_Proofs Rt_Model Array_Model Rt_Spec Rt_Proofs Array_Spec Hist_Proofs.
From Coq Require Import ZifyBool.
Ltac Zify.zify_post_hook ::= Z.div_mod_to_equations.

(* ---- arithmetic of sizes ---- *)
Definition pos (l : list Z) : Prop := Forall (fun d => 0 < d) l.
Lemma elements_pos l : pos l -> 0 < elements l.
Proof. induction 1; cbn [elements]; nia. Qed.
Lemma indirections_nonneg l : pos l -> 0 <= indirections l.
Proof. induction 1 as [|d l Hd Hl IH]; cbn [indirections]; [lia|]. destruct l; [lia|]. nia. Qed.
Lemma indirections_cons d e l : indirections (d :: e :: l) = d * (1 + indirections (e :: l)).
Proof. reflexivity. Qed.
Lemma mul_step j i v : 0 <= v -> j + 1 <= i -> j * v + v <= i * v.
Proof. nia. Qed.

(* Row-major index. *)
Fixpoint lin (sizes idx : list Z) : Z :=
  match sizes, idx with
  | _ :: r, i :: idx' => i * elements r + lin r idx'
  | _, _ => 0
  end.
Lemma lin_range sizes idx : in_range sizes idx -> 0 <= lin sizes idx < elements sizes.
Proof.
  induction 1 as [|d i r idx H1 H2 IH]; cbn [lin elements]; [lia|]. nia.
Qed.
Lemma lin_inj sizes : forall idx idx', in_range sizes idx -> in_range sizes idx' ->
  lin sizes idx = lin sizes idx' -> idx = idx'.
Proof.
  induction sizes as [|d r IH]; intros idx idx' H H' E.
  - inversion H; inversion H'; reflexivity.
  - inversion H as [|? i ? x Hi Hx]; inversion H' as [|? i' ? x' Hi' Hx']; subst. cbn [lin] in E.
    pose proof (lin_range _ _ Hx). pose proof (lin_range _ _ Hx').
    assert (i = i') by nia. subst. f_equal. apply IH; auto. lia.
Qed.

(* ---- the shape the indirection vectors must have ---- *)
(* [iv] and [data] are byte offsets from [addr] of the vectors and of the elements. *)
Definition enc (direct : bool) (addr pos_ target : Z) : Z :=
  if direct then addr + target else target - pos_.
Fixpoint shape (direct : bool) (m : memory) (addr : Z) (sizes : list Z) (iv data : Z) : Prop :=
  match sizes with
  | [] => True
  | d :: r =>
    match r with
    | [] => True
    | _ :: r' =>
      forall i, 0 <= i < d ->
        let iv' := iv + 4 * d + i * (4 * indirections r) in
        let data' := data + i * (4 * elements r) in
        load32 m (addr + (iv + 4 * i)) =
          enc direct addr (iv + 4 * i) (match r' with [] => data' | _ => iv' end) /\
        shape direct m addr r iv' data'
    end
  end.

Definition root (sizes : list Z) (iv data : Z) : Z := match sizes with [_] => data | _ => iv end.
Lemma shape_cons direct m addr d sz iv data : sz <> [] ->
  shape direct m addr (d :: sz) iv data <->
  (forall i, 0 <= i < d ->
     load32 m (addr + (iv + 4 * i)) = enc direct addr (iv + 4 * i)
       (root sz (iv + 4 * d + i * (4 * indirections sz)) (data + i * (4 * elements sz))) /\
     shape direct m addr sz (iv + 4 * d + i * (4 * indirections sz)) (data + i * (4 * elements sz))).
Proof. intros H. destruct sz as [|e [|e' r]]; [congruence|reflexivity..]. Qed.

Lemma shape_ext direct m m' addr sizes : pos sizes -> forall iv data,
  (forall x, addr + iv <= x < addr + iv + 4 * indirections sizes -> m' x = m x) ->
  shape direct m addr sizes iv data -> shape direct m' addr sizes iv data.
Proof.
  induction 1 as [|d r Hd Hr IH]; intros iv data HM H; [exact Logic.I|].
  destruct r as [|e r']; [exact Logic.I|]. cbn [shape] in *. fold (shape direct) in *.
  intros i Hi. specialize (H i Hi). cbv zeta in *. destruct H as [H1 H2].
  rewrite indirections_cons in HM.
  pose proof (indirections_nonneg _ Hr) as Hn. set (V := indirections (e :: r')) in *.
  split.
  - rewrite <- H1. apply load32_ext. intros x Hx. apply HM. nia.
  - apply IH with (2 := H2). intros x Hx. apply HM. nia.
Qed.

Lemma locate_cons direct m a i j r : locate direct m a (i :: j :: r) =
  locate direct m (if direct then load32 m (a + 4 * i) else a + 4 * i + load32 m (a + 4 * i)) (j :: r).
Proof. reflexivity. Qed.
Lemma entries_cons direct m a i j r : entries direct m a (i :: j :: r) =
  (a + 4 * i) :: entries direct m (if direct then load32 m (a + 4 * i) else a + 4 * i + load32 m (a + 4 * i)) (j :: r).
Proof. reflexivity. Qed.

(* Following the vectors reaches the row-major element. *)
Lemma shape_locate direct m addr sizes : pos sizes -> forall iv data idx, in_range sizes idx -> sizes <> [] ->
  shape direct m addr sizes iv data ->
  locate direct m (addr + root sizes iv data) idx = addr + data + 4 * lin sizes idx.
Proof.
  induction 1 as [|d r Hd Hr IH]; intros iv data idx HR Hne H; [congruence|].
  inversion HR as [|? i ? idx' Hi Hidx]; subst. destruct r as [|e r'].
  - inversion Hidx; subst. cbn [root locate lin elements]. lia.
  - destruct idx' as [|i' idx'']; [inversion Hidx|].
    cbn [shape] in H. fold (shape direct) in H. specialize (H i Hi). cbv zeta in H. destruct H as [H1 H2].
    specialize (IH _ _ (i' :: idx'') Hidx ltac:(discriminate) H2).
    cbn [root]. rewrite locate_cons.
    replace (addr + iv + 4 * i) with (addr + (iv + 4 * i)) by lia. rewrite H1.
    replace (if direct then _ else _) with
      (addr + root (e :: r') (iv + 4 * d + i * (4 * indirections (e :: r'))) (data + i * (4 * elements (e :: r')))).
    + rewrite IH. cbn [lin]. lia.
    + unfold enc, root. destruct direct, r'; lia.
Qed.
Lemma shape_entries direct m addr sizes : pos sizes -> forall iv data idx x, in_range sizes idx -> sizes <> [] ->
  shape direct m addr sizes iv data ->
  In x (entries direct m (addr + root sizes iv data) idx) ->
  addr + iv <= x /\ x + 4 <= addr + iv + 4 * indirections sizes.
Proof.
  induction 1 as [|d r Hd Hr IH]; intros iv data idx x HR Hne H HIn; [congruence|].
  inversion HR as [|? i ? idx' Hi Hidx]; subst. destruct r as [|e r'].
  - inversion Hidx; subst. destruct HIn.
  - destruct idx' as [|i' idx'']; [inversion Hidx|].
    cbn [shape] in H. fold (shape direct) in H. specialize (H i Hi). cbv zeta in H. destruct H as [H1 H2].
    specialize (IH _ _ (i' :: idx'') x Hidx ltac:(discriminate) H2).
    rewrite indirections_cons. pose proof (indirections_nonneg _ Hr) as Hn.
    cbn [root] in HIn. rewrite entries_cons in HIn. destruct HIn as [<-|HIn]; [nia|].
    replace (addr + iv + 4 * i) with (addr + (iv + 4 * i)) in HIn by lia. rewrite H1 in HIn.
    match type of HIn with In x (entries _ _ ?a _) =>
      replace a with
      (addr + root (e :: r') (iv + 4 * d + i * (4 * indirections (e :: r'))) (data + i * (4 * elements (e :: r')))) in HIn
        by (unfold enc, root; destruct direct, r'; lia) end.
    specialize (IH HIn). nia.
Qed.

Lemma shape_array direct m addr sizes n : pos sizes -> sizes <> [] ->
  shape direct m addr sizes 0 (4 * indirections sizes) -> 4 * total_cells sizes <= n ->
  array_at direct m addr sizes n.
Proof.
  intros HP Hne HS Hn. unfold total_cells in Hn.
  assert (Hr : addr = addr + root sizes 0 (4 * indirections sizes)).
  { unfold root. destruct sizes as [|? [|]]; cbn [indirections]; lia. }
  pose proof (elements_pos _ HP). pose proof (indirections_nonneg _ HP).
  assert (HL : forall idx, in_range sizes idx ->
     locate direct m addr idx = addr + 4 * indirections sizes + 4 * lin sizes idx /\
     0 <= lin sizes idx < elements sizes).
  { intros idx Hi. split; [|now apply lin_range]. rewrite Hr at 1. now apply shape_locate. }
  assert (HE : forall idx e, in_range sizes idx -> In e (entries direct m addr idx) ->
     addr <= e /\ e + 4 <= addr + 4 * indirections sizes).
  { intros idx e Hi He. rewrite Hr in He. apply (shape_entries direct m addr sizes HP 0 _ idx) in He; auto. lia. }
  constructor.
  - intros idx Hi. destruct (HL _ Hi) as [-> ?]. lia.
  - intros idx idx' Hi Hi' Hd. destruct (HL _ Hi) as [-> ?], (HL _ Hi') as [-> ?].
    assert (lin sizes idx <> lin sizes idx') by (intros E; apply Hd; eapply lin_inj; eauto).
    unfold apart. lia.
  - intros idx e Hi He. specialize (HE _ _ Hi He). lia.
  - intros idx idx' e Hi Hi' He. specialize (HE _ _ Hi' He). destruct (HL _ Hi) as [-> ?]. unfold apart. lia.
Qed.

(* ---- the generators build that shape ---- *)
Definition outside (m m' : memory) (lo hi : Z) : Prop := forall x, x < lo \/ hi <= x -> m' x = m x.
Lemma outside_refl m lo hi : outside m m lo hi. Proof. intros x _. reflexivity. Qed.
Lemma outside_trans m1 m2 m3 lo hi : outside m1 m2 lo hi -> outside m2 m3 lo hi -> outside m1 m3 lo hi.
Proof. intros H1 H2 x Hx. rewrite H2, H1; auto. Qed.
Lemma outside_sub m m' lo hi lo' hi' : outside m m' lo' hi' -> lo <= lo' -> hi' <= hi -> outside m m' lo hi.
Proof. intros H H1 H2 x Hx. apply H. lia. Qed.

Lemma set_mem_mem m s : mem (set_mem m s) = m. Proof. reflexivity. Qed.
Lemma set_mem_set m m' s : set_mem m (set_mem m' s) = set_mem m s. Proof. reflexivity. Qed.
Lemma set_mem_id s : set_mem (mem s) s = s. Proof. now destruct s. Qed.
Lemma wr32_ok a v s : 0 <= a -> a + 4 <= mem_size s -> wr32 a v s = Ok tt (set_mem (store32 (mem s) a v) s).
Proof. intros. unfold wr32. now rewrite in_mem_true. Qed.

Section Absolute.
Variable s0 : rt.
Variable addr : Z.
Hypothesis Ha : 0 <= addr.
Hypothesis Hsz : mem_size s0 < two31.

Definition abs_sizes (dims : list Z) (dim : nat) : list Z := rev (firstn (S dim) dims).

Lemma abs_sizes_S dims dim : (S dim < length dims)%nat ->
  abs_sizes dims (S dim) = dim_at dims (S dim) :: abs_sizes dims dim.
Proof.
  intros H. unfold abs_sizes, dim_at. remember (S dim) as k.
  rewrite <- (rev_involutive (nth k dims 0 :: rev (firstn k dims))). cbn [rev]. rewrite rev_involutive. f_equal.
  clear Heqk. revert dims H. induction k as [|k IH]; intros [|d dims] H; cbn in *; try lia; [reflexivity|].
  f_equal. apply IH. lia.
Qed.
Lemma abs_sizes_0 dims : (0 < length dims)%nat -> abs_sizes dims 0 = [dim_at dims 0].
Proof. destruct dims; cbn; [lia|reflexivity]. Qed.

Lemma absolute_iv_ok dims : pos dims -> forall dim, (dim < length dims)%nat ->
  forall m iv data,
  let sz := abs_sizes dims dim in
  0 <= iv -> iv + 4 * indirections sz <= data -> addr + data + 4 * elements sz <= mem_size s0 ->
  exists m', absolute_iv addr dims dim iv data (set_mem m s0) =
    Ok (root sz iv data, iv + 4 * indirections sz, data + 4 * elements sz) (set_mem m' s0) /\
    outside m m' (addr + iv) (addr + iv + 4 * indirections sz) /\ shape true m' addr sz iv data.
Proof.
  intros HP. induction dim as [|d IH]; intros Hlt m iv data sz H1 H2 H3.
  - subst sz. rewrite abs_sizes_0 in * by assumption. cbn [indirections elements root shape] in *.
    exists m. split; [|split; [apply outside_refl|exact Logic.I]].
    assert (0 < dim_at dims 0).
    { unfold pos in HP.
      rewrite Forall_forall in HP. apply HP. unfold dim_at. now apply nth_In. }
    cbn [absolute_iv]. unfold ret. rewrite wrap32_id by bnd.
    f_equal. f_equal; [f_equal; lia|lia].
  - assert (Hsz' : pos (abs_sizes dims d)).
    { unfold pos, abs_sizes in *. apply Forall_rev. rewrite Forall_forall in *. intros x Hx. apply HP.
      rewrite <- (firstn_skipn (S d) dims). apply in_or_app. now left. }
    assert (Hn : 0 < dim_at dims (S d)).
    { unfold pos in HP. rewrite Forall_forall in HP. apply HP. unfold dim_at. now apply nth_In. }
    subst sz. rewrite (abs_sizes_S dims d Hlt) in *. specialize (IH ltac:(lia)). cbv zeta in IH.
    set (n := dim_at dims (S d)) in *. set (sz := abs_sizes dims d) in *.
    assert (Hne : exists e r, sz = e :: r).
    { destruct sz eqn:E; [|eauto]. unfold sz, abs_sizes in E. apply (f_equal (@length Z)) in E.
      rewrite rev_length, firstn_length in E. cbn [length] in E. lia. }
    destruct Hne as (e & r & Esz).
    assert (EV : indirections (n :: sz) = n * (1 + indirections sz)) by (rewrite Esz; reflexivity).
    rewrite EV in *. cbn [elements] in *.
    pose proof (indirections_nonneg _ Hsz') as HV. pose proof (elements_pos _ Hsz') as HE.
    set (V := indirections sz) in *. set (D := elements sz) in *.
    cbn [absolute_iv]. fold n.
    (* the loop *)
    match goal with |- context [(fix loop (k : nat) (i iv' data' : Z) {struct k} : rt -> res rt (Z * Z * Z) := _) ] => idtac end.
    set (loop := fix loop (k : nat) (i iv' data' : Z) {struct k} : rt -> res rt (Z * Z * Z) :=
       match k with
       | O => ret (iv, iv', data')
       | S k' =>
         r <- absolute_iv addr dims d iv' data';;
         let '(off, iv'', data'') := r in
         wr32 (addr + wrap32 (iv + i * 4)) (wrap32 (addr + off));;;
         loop k' (i + 1) iv'' data''
       end).
    assert (L : forall k i m1, 0 <= i -> i + Z.of_nat k = n ->
       outside m m1 (addr + iv) (addr + (iv + 4 * n + i * (4 * V))) ->
       (forall j, 0 <= j < i ->
          load32 m1 (addr + (iv + 4 * j)) =
             enc true addr (iv + 4 * j) (root sz (iv + 4 * n + j * (4 * V)) (data + j * (4 * D))) /\
          shape true m1 addr sz (iv + 4 * n + j * (4 * V)) (data + j * (4 * D))) ->
       exists m', loop k i (iv + 4 * n + i * (4 * V)) (data + i * (4 * D)) (set_mem m1 s0) =
          Ok (iv, iv + 4 * (n * (1 + V)), data + 4 * (n * D)) (set_mem m' s0) /\
          outside m m' (addr + iv) (addr + iv + 4 * (n * (1 + V))) /\
          (forall j, 0 <= j < n ->
          load32 m' (addr + (iv + 4 * j)) =
             enc true addr (iv + 4 * j) (root sz (iv + 4 * n + j * (4 * V)) (data + j * (4 * D))) /\
          shape true m' addr sz (iv + 4 * n + j * (4 * V)) (data + j * (4 * D)))).
    { induction k as [|k IHk]; intros i m1 Hi Hk HO HS.
      - assert (i = n) by lia. subst i. exists m1. cbn [loop].
        split; [unfold ret; f_equal; f_equal; [f_equal|]; lia|].
        split; [eapply outside_sub; [exact HO|lia|lia]|exact HS].
      - pose proof (mul_step i n (4 * V) ltac:(lia) ltac:(lia)) as M1.
        pose proof (mul_step i n (4 * D) ltac:(lia) ltac:(lia)) as M2.
        assert (0 <= i * (4 * V)) by nia. assert (0 <= i * (4 * D)) by nia.
        destruct (IH m1 (iv + 4 * n + i * (4 * V)) (data + i * (4 * D))) as (m2 & E2 & O2 & S2); try lia.
        cbn [loop]. erewrite bind_ok by exact E2.
        assert (0 <= root sz (iv + 4 * n + i * (4 * V)) (data + i * (4 * D)) /\
                addr + root sz (iv + 4 * n + i * (4 * V)) (data + i * (4 * D)) < two31) as [R1 R2].
        { rewrite Esz. unfold root. destruct r; lia. }
        rewrite (wrap32_id (iv + i * 4)) by bnd.
        rewrite (wrap32_id (addr + root _ _ _)) by bnd.
        erewrite bind_ok by (apply wr32_ok; cbn [mem_size set_mem]; lia).
        rewrite set_mem_mem, set_mem_set.
        replace (iv + 4 * n + i * (4 * V) + 4 * V) with (iv + 4 * n + (i + 1) * (4 * V)) in * by lia.
        replace (data + i * (4 * D) + 4 * D) with (data + (i + 1) * (4 * D)) in * by lia.
        apply IHk; try lia.
        + intros x Hx. rewrite store32_out by lia. rewrite O2 by lia. apply HO. lia.
        + intros j Hj. destruct (Z.eq_dec j i) as [->|Hji].
          * split.
            -- replace (addr + (iv + i * 4)) with (addr + (iv + 4 * i)) by lia.
               rewrite load32_store32_same. cbn [enc]. apply wrap32_id. bnd.
            -- eapply shape_ext; [exact Hsz'| |exact S2]. fold V. intros x Hx. apply store32_out. lia.
          * destruct (HS j ltac:(lia)) as [HS1 HS2].
            pose proof (mul_step j i (4 * V) ltac:(lia) ltac:(lia)). assert (0 <= j * (4 * V)) by nia.
            split.
            -- rewrite load32_store32_other by lia. rewrite <- HS1. apply load32_ext. intros x Hx. apply O2. lia.
            -- eapply shape_ext; [exact Hsz'| |exact HS2]. fold V. intros x Hx.
               rewrite store32_out by lia. apply O2. lia. }
    destruct (L (Z.to_nat n) 0 m) as (m' & E' & O' & S'); try lia.
    { apply outside_refl. }
    replace (iv + 4 * n + 0 * (4 * V)) with (iv + 4 * n) in E' by lia.
    replace (data + 0 * (4 * D)) with data in E' by lia.
    exists m'. rewrite (wrap32_id (iv + n * 4)) by (unfold two31 in *; unfold is_i32, two31; nia).
    replace (iv + n * 4) with (iv + 4 * n) by lia.
    split.
    { replace (root (n :: sz) iv data) with iv by (rewrite Esz; reflexivity). exact E'. }
    split; [exact O'|].
    apply shape_cons; [congruence|exact S'].
Qed.
End Absolute.

Section Relative.
Variable s0 : rt.
Variable base : Z.
Hypothesis Hb : 0 <= base.
Hypothesis Hsz : mem_size s0 < two31.

Lemma inner_iv_ok dl : pos dl -> forall m cur data, (2 <= length dl)%nat ->
  0 <= cur -> cur + indirections dl <= data -> base + 4 * (data + elements dl) <= mem_size s0 ->
  exists m', inner_iv base dl cur data (set_mem m s0) =
    Ok (cur + indirections dl, data + elements dl) (set_mem m' s0) /\
    outside m m' (base + 4 * cur) (base + 4 * cur + 4 * indirections dl) /\
    shape false m' base dl (4 * cur) (4 * data).
Proof.
  induction 1 as [|n sz Hn HP IH]; intros m cur data Hlen H1 H2 H3; cbn [length] in Hlen; [lia|].
  destruct sz as [|e r]; [cbn [length] in Hlen; lia|].
  rewrite indirections_cons in *. change (elements (n :: e :: r)) with (n * elements (e :: r)) in *.
  pose proof (indirections_nonneg _ HP) as HV. pose proof (elements_pos _ HP) as HE.
  assert (Hcur : is_i32 (cur + n)) by (unfold is_i32, two31 in *; nia).
  destruct r as [|e' r].
  - (* last vector level *)
    change (elements [e]) with (e * 1) in *. change (indirections [e]) with 0 in *.
    cbn [inner_iv hd]. rewrite (wrap32_id (cur + n)) by assumption.
    set (loop := fix loop (k : nat) (w da : Z) {struct k} : rt -> res rt (Z * Z) :=
         match k with
         | O => ret (cur + n, da)
         | S k' =>
           wr32 (base + 4 * w) (wrap32 ((da - w) * 4));;;
           loop k' (wrap32 (w + 1)) (wrap32 (da + e))
         end).
    assert (L : forall k i m1, 0 <= i -> i + Z.of_nat k = n ->
       outside m m1 (base + 4 * cur) (base + 4 * cur + 4 * n) ->
       (forall j, 0 <= j < i -> load32 m1 (base + (4 * cur + 4 * j)) =
          enc false base (4 * cur + 4 * j) (4 * data + j * (4 * e))) ->
       exists m', loop k (cur + i) (data + i * e) (set_mem m1 s0) =
         Ok (cur + n, data + n * e) (set_mem m' s0) /\
         outside m m' (base + 4 * cur) (base + 4 * cur + 4 * n) /\
         (forall j, 0 <= j < n -> load32 m' (base + (4 * cur + 4 * j)) =
          enc false base (4 * cur + 4 * j) (4 * data + j * (4 * e)))).
    { induction k as [|k IHk]; intros i m1 Hi Hk HO HS.
      - assert (i = n) by lia. subst i. exists m1. cbn [loop]. auto.
      - pose proof (mul_step i n e ltac:(lia) ltac:(lia)) as M1. assert (0 <= i * e) by nia.
        cbn [loop]. erewrite bind_ok by (apply wr32_ok; cbn [mem_size set_mem]; lia).
        rewrite set_mem_mem, set_mem_set.
        rewrite (wrap32_id (cur + i + 1)) by bnd.
        rewrite (wrap32_id (data + i * e + e)) by bnd.
        replace (cur + i + 1) with (cur + (i + 1)) by lia.
        replace (data + i * e + e) with (data + (i + 1) * e) by lia.
        apply IHk; try lia.
        + intros x Hx. rewrite store32_out by lia. apply HO. lia.
        + intros j Hj. destruct (Z.eq_dec j i) as [->|Hji].
          * replace (base + (4 * cur + 4 * i)) with (base + 4 * (cur + i)) by lia.
            rewrite load32_store32_same. cbn [enc]. rewrite !wrap32_id; rewrite ?wrap32_id; bnd.
          * rewrite load32_store32_other by lia. apply HS. lia. }
    destruct (L (Z.to_nat n) 0 m) as (m' & E' & O' & S'); try lia.
    { apply outside_refl. }
    replace (cur + 0) with cur in E' by lia. replace (data + 0 * e) with data in E' by lia.
    exists m'. replace (n * (1 + 0)) with n by lia. replace (n * (e * 1)) with (n * e) by lia.
    split; [exact E'|]. split; [exact O'|].
    apply shape_cons; [discriminate|]. intros i Hi. split; [|exact Logic.I].
    rewrite (S' i Hi). cbn [root elements]. unfold enc. lia.
  - set (sz := e :: e' :: r) in *. set (V := indirections sz) in *. set (D := elements sz) in *.
    cbn [inner_iv]. rewrite (wrap32_id (cur + n)) by assumption.
    change (inner_iv base (e :: e' :: r)) with (inner_iv base sz).
    match goal with |- context [inner_iv] => idtac | |- _ => fold (inner_iv base sz) end.
    set (loop := fix loop (k : nat) (w c da : Z) {struct k} : rt -> res rt (Z * Z) :=
         match k with
         | O => ret (c, da)
         | S k' =>
           wr32 (base + 4 * w) (wrap32 ((c - w) * 4));;;
           r <- inner_iv base sz c da;;
           loop k' (wrap32 (w + 1)) (fst r) (snd r)
         end).
    assert (L : forall k i m1, 0 <= i -> i + Z.of_nat k = n ->
       outside m m1 (base + 4 * cur) (base + (4 * cur + 4 * n + i * (4 * V))) ->
       (forall j, 0 <= j < i ->
          load32 m1 (base + (4 * cur + 4 * j)) =
             enc false base (4 * cur + 4 * j) (root sz (4 * cur + 4 * n + j * (4 * V)) (4 * data + j * (4 * D))) /\
          shape false m1 base sz (4 * cur + 4 * n + j * (4 * V)) (4 * data + j * (4 * D))) ->
       exists m', loop k (cur + i) (cur + n + i * V) (data + i * D) (set_mem m1 s0) =
          Ok (cur + n * (1 + V), data + n * D) (set_mem m' s0) /\
          outside m m' (base + 4 * cur) (base + 4 * cur + 4 * (n * (1 + V))) /\
          (forall j, 0 <= j < n ->
          load32 m' (base + (4 * cur + 4 * j)) =
             enc false base (4 * cur + 4 * j) (root sz (4 * cur + 4 * n + j * (4 * V)) (4 * data + j * (4 * D))) /\
          shape false m' base sz (4 * cur + 4 * n + j * (4 * V)) (4 * data + j * (4 * D)))).
    { induction k as [|k IHk]; intros i m1 Hi Hk HO HS.
      - assert (i = n) by lia. subst i. exists m1. cbn [loop].
        split; [unfold ret; f_equal; f_equal; lia|].
        split; [eapply outside_sub; [exact HO|lia|lia]|exact HS].
      - pose proof (mul_step i n V ltac:(lia) ltac:(lia)) as M1.
        pose proof (mul_step i n D ltac:(lia) ltac:(lia)) as M2.
        assert (0 <= i * V) by nia. assert (0 <= i * D) by nia.
        cbn [loop]. erewrite bind_ok by (apply wr32_ok; cbn [mem_size set_mem]; lia).
        rewrite set_mem_mem, set_mem_set.
        set (m1' := store32 m1 _ _).
        destruct (IH m1' (cur + n + i * V) (data + i * D)) as (m2 & E2 & O2 & S2); try lia.
        { unfold sz; cbn [length]; lia. }
        erewrite bind_ok by exact E2. cbn [fst snd].
        rewrite (wrap32_id (cur + i + 1)) by bnd.
        replace (cur + i + 1) with (cur + (i + 1)) by lia.
        replace (cur + n + i * V + V) with (cur + n + (i + 1) * V) by lia.
        replace (data + i * D + D) with (data + (i + 1) * D) by lia.
        apply IHk; try lia.
        + intros x Hx. rewrite O2 by lia. unfold m1'. rewrite store32_out by lia. apply HO. lia.
        + intros j Hj. destruct (Z.eq_dec j i) as [->|Hji].
          * split.
            -- rewrite (load32_ext _ m1') by (intros x Hx; apply O2; lia). unfold m1'.
               replace (base + (4 * cur + 4 * i)) with (base + 4 * (cur + i)) by lia.
               rewrite load32_store32_same. unfold root, sz, enc. rewrite !wrap32_id; rewrite ?wrap32_id; bnd.
            -- replace (4 * cur + 4 * n + i * (4 * V)) with (4 * (cur + n + i * V)) by lia.
               replace (4 * data + i * (4 * D)) with (4 * (data + i * D)) by lia. exact S2.
          * destruct (HS j ltac:(lia)) as [HS1 HS2].
            pose proof (mul_step j i V ltac:(lia) ltac:(lia)). assert (0 <= j * V) by nia.
            split.
            -- rewrite <- HS1. apply load32_ext. intros x Hx. rewrite O2 by lia. unfold m1'. apply store32_out. lia.
            -- eapply shape_ext; [exact HP| |exact HS2]. fold V. intros x Hx.
               rewrite O2 by lia. unfold m1'. apply store32_out. lia. }
    destruct (L (Z.to_nat n) 0 m) as (m' & E' & O' & S'); try lia.
    { apply outside_refl. }
    replace (cur + 0) with cur in E' by lia. replace (cur + n + 0 * V) with (cur + n) in E' by lia.
    replace (data + 0 * D) with data in E' by lia.
    exists m'. split; [exact E'|]. split; [exact O'|].
    apply shape_cons; [discriminate|exact S'].
Qed.

Lemma calc_indirection_eq dl : pos dl -> (2 <= length dl)%nat -> indirections dl < two31 ->
  calc_indirection dl = indirections dl.
Proof.
  induction 1 as [|n sz Hn HP IH]; intros Hlen HB; [cbn [length] in Hlen; lia|].
  destruct sz as [|e [|e' r]]; [cbn [length] in Hlen; lia|cbn; lia|].
  pose proof (indirections_nonneg _ HP) as HV. change (indirections (n :: e :: e' :: r)) with (n * (1 + indirections (e :: e' :: r))) in *.
  change (calc_indirection (n :: e :: e' :: r)) with (wrap32 (n + n * calc_indirection (e :: e' :: r))).
  set (V := indirections (e :: e' :: r)) in *.
  rewrite IH; [|cbn [length]; lia|nia]. rewrite wrap32_id; [lia|]. unfold is_i32. nia.
Qed.
End Relative.

(* ---- the size computation ---- *)
Lemma total_cells_cons d p : p <> [] -> total_cells (d :: p) = d * (1 + total_cells p).
Proof. intros H. destruct p as [|e p]; [congruence|]. unfold total_cells. rewrite indirections_cons. cbn [elements]. lia. Qed.
Lemma indirections_cons' d p : p <> [] -> indirections (d :: p) = d * (1 + indirections p).
Proof. intros H. destruct p as [|e p]; [congruence|]. apply indirections_cons. Qed.
Lemma total_pos p : pos p -> 0 < total_cells p.
Proof. intros H. unfold total_cells. pose proof (elements_pos _ H). pose proof (indirections_nonneg _ H). lia. Qed.
Lemma total_app q p : pos q -> pos p -> p <> [] -> total_cells p <= total_cells (q ++ p).
Proof.
  induction 1 as [|d q Hd Hq IH]; intros HP Hne; cbn [app]; [lia|].
  rewrite total_cells_cons by (destruct q; [auto|discriminate]). specialize (IH HP Hne).
  pose proof (total_pos _ HP). nia.
Qed.
Lemma pos_app q p : pos (q ++ p) <-> pos q /\ pos p.
Proof. apply Forall_app. Qed.
Lemma pos_rev l : pos (rev l) <-> pos l.
Proof. split; intros H; [rewrite <- (rev_involutive l)|]; now apply Forall_rev. Qed.
Lemma pos_dec l : {pos l} + {~ pos l}.
Proof.
  induction l as [|d l [IH|IH]].
  - left. constructor.
  - destruct (Z_lt_dec 0 d); [left; now constructor|right; intros H; inversion H; auto].
  - right. intros H. inversion H; auto.
Qed.

Lemma wrap32_mul_add a d b : wrap32 (wrap32 (wrap32 a * d) + b) = wrap32 (a * d + b).
Proof.
  apply wrap32_eq_mod. destruct (wrap32_mod (wrap32 a * d)) as [k ->]. destruct (wrap32_mod a) as [k' ->].
  replace ((a + k' * two32) * d + k * two32 + b - (a * d + b)) with ((k' * d + k) * two32) by lia.
  apply Z.mod_mul. unfold two32. lia.
Qed.

Lemma full_array_size_spec ds : Forall is_i32 ds -> forall p, pos p -> p <> [] -> total_cells p < two32 ->
  full_array_size ds (total_cells p) (wrap32 (4 * indirections p)) =
  if pos_dec ds then
    if total_cells (rev ds ++ p) <? two32
    then Some (total_cells (rev ds ++ p), wrap32 (4 * indirections (rev ds ++ p)))
    else None
  else None.
Proof.
  induction 1 as [|d ds Hd Hds IH]; intros p HP Hne HT; cbn [full_array_size].
  - destruct (pos_dec []) as [_|H]; [|exfalso; apply H; constructor]. cbn [rev app].
    replace (_ <? _) with true by lia. reflexivity.
  - destruct (d <=? 0) eqn:E.
    { destruct (pos_dec (d :: ds)) as [H|_]; [|reflexivity]. inversion H. lia. }
    pose proof (total_pos _ HP).
    assert (Htc : total_cells (d :: p) = total_cells p * d + d) by (rewrite total_cells_cons by assumption; lia).
    assert (HPd : pos (d :: p)) by (constructor; [lia|exact HP]).
    assert (Hbig : two32 <= total_cells (d :: p) -> None =
      (if pos_dec (d :: ds) then
        if total_cells (rev (d :: ds) ++ p) <? two32
        then Some (total_cells (rev (d :: ds) ++ p), wrap32 (4 * indirections (rev (d :: ds) ++ p)))
        else None
      else @None (Z * Z))).
    { intros Hb. destruct (pos_dec (d :: ds)) as [H'|_]; [|reflexivity].
      cbn [rev]. rewrite <- app_assoc. cbn [app].
      assert (pos (rev ds)) by (apply pos_rev; now inversion H').
      pose proof (total_app (rev ds) (d :: p) H0 HPd ltac:(discriminate)).
      replace (_ <? _) with false by lia. reflexivity. }
    unfold u32_mul_safe, u32_add_safe in *.
    rewrite (u32_id (total_cells p)) by (unfold is_u32; lia).
    rewrite (u32_id d) by (unfold is_i32, is_u32, two31, two32 in *; lia).
    destruct (total_cells p * d <? two32) eqn:E1; cbn [negb]; [|apply Hbig; lia].
    rewrite (u32_id (total_cells p * d)) by (unfold is_u32; nia).
    rewrite ?(u32_id (total_cells p * d)) by (unfold is_u32; nia).
    destruct (total_cells p * d + d <? two32) eqn:E2; cbn [negb]; [|apply Hbig; lia].
    rewrite (u32_id (total_cells p * d + d)) by (unfold is_u32; nia).
    rewrite <- Htc. rewrite wrap32_mul_add.
    replace (4 * indirections p * d + d * 4) with (4 * indirections (d :: p))
      by (rewrite indirections_cons' by assumption; lia).
    rewrite IH; auto; [|discriminate|lia].
    cbn [rev]. rewrite <- app_assoc. cbn [app].
    destruct (pos_dec ds) as [H1|H1], (pos_dec (d :: ds)) as [H2|H2]; try reflexivity.
    + exfalso. apply H2. constructor; [lia|exact H1].
    + exfalso. apply H1. now inversion H2.
Qed.

(* ---- generateFullArray ---- *)
Lemma rev_cons_app (d : Z) ds : rev (d :: ds) = rev ds ++ [d]. Proof. reflexivity. Qed.
Lemma total_single d : total_cells [d] = d.
Proof. unfold total_cells. cbn [indirections elements]. lia. Qed.

Lemma full_size d0 ds : is_i32 d0 -> Forall is_i32 ds -> 0 < d0 ->
  full_array_size ds (u32 d0) 0 =
  if pos_dec ds then
    if total_cells (rev (d0 :: ds)) <? two32
    then Some (total_cells (rev (d0 :: ds)), wrap32 (4 * indirections (rev (d0 :: ds))))
    else None
  else None.
Proof.
  intros H1 H2 H3. rewrite u32_id by (unfold is_i32, is_u32, two31, two32 in *; lia).
  pose proof (full_array_size_spec ds H2 [d0]) as E. rewrite total_single in E.
  change (indirections [d0]) with 0 in E. change (wrap32 (4 * 0)) with 0 in E.
  rewrite E; [reflexivity|repeat constructor; assumption|discriminate|unfold is_i32, two31, two32 in *; lia].
Qed.

Lemma gen_refuse s dims z k : I s -> Forall is_i32 dims -> dims <> [] ->
  (~ pos dims \/ two32 <= hp s + 4 * total_cells (rev dims)) ->
  generateFullArray dims z k s = Fail ARRAY_TOO_BIG s.
Proof.
  intros Hs HI Hne H. destruct dims as [|d0 ds]; [congruence|]. inversion HI; subst.
  unfold generateFullArray. destruct (d0 <=? 0) eqn:E; [reflexivity|].
  rewrite full_size by (auto; lia).
  destruct (pos_dec ds) as [HP|HP]; [|reflexivity].
  assert (HP' : pos (d0 :: ds)) by (constructor; [lia|exact HP]).
  destruct H as [H|H]; [contradiction|].
  pose proof (total_pos (rev (d0 :: ds)) (proj2 (pos_rev _) HP')) as HT.
  set (T := total_cells (rev (d0 :: ds))) in *.
  destruct (T <? two32) eqn:E1; [|reflexivity].
  unfold u32_mul_safe. rewrite (u32_id T) by (unfold is_u32; lia). change (u32 4) with 4.
  destruct (T * 4 <? two32) eqn:E2; cbn [negb]; [|reflexivity].
  unfold bind at 1, get. unfold u32_add_safe. rewrite (u32_id (T * 4)) by (unfold is_u32; lia).
  destruct Hs as [L P]. rewrite (u32_id (hp s)) by (dlay; unfold is_u32, two31, two32 in *; lia).
  rewrite (u32_id (T * 4)) by (unfold is_u32; lia).
  replace (hp s + T * 4 <? two32) with false by lia. reflexivity.
Qed.

Lemma gen_low s dims z k : I s -> 64 <= sp s -> Forall is_i32 dims -> dims <> [] -> pos dims ->
  hp s + 4 * total_cells (rev dims) < two32 -> sp s - 64 <= hp s + 4 * total_cells (rev dims) ->
  generateFullArray dims z k s = Fail HEAPLOW s.
Proof.
  intros Hs Hsp HI Hne HP H H'. destruct dims as [|d0 ds]; [congruence|]. inversion HI; subst. inversion HP; subst.
  pose proof (total_pos (rev (d0 :: ds)) (proj2 (pos_rev _) HP)) as HT.
  unfold generateFullArray. replace (d0 <=? 0) with false by lia.
  rewrite full_size by (auto; lia). destruct (pos_dec ds) as [_|HP0]; [|contradiction].
  destruct Hs as [L P].
  set (T := total_cells (rev (d0 :: ds))) in *.
  assert (0 <= hp s) by (dlay; lia).
  replace (T <? two32) with true by lia.
  unfold u32_mul_safe. rewrite (u32_id T) by (unfold is_u32; lia). change (u32 4) with 4.
  replace (T * 4 <? two32) with true by lia. cbn [negb].
  unfold bind at 1, get. unfold u32_add_safe. rewrite (u32_id (T * 4)) by (unfold is_u32; lia).
  rewrite (u32_id (hp s)) by (dlay; unfold is_u32, two31, two32 in *; lia).
  rewrite ?(u32_id (T * 4)) by (unfold is_u32; lia).
  replace (hp s + T * 4 <? two32) with true by lia. cbn [negb].
  rewrite (u32_id (hp s + T * 4)) by (unfold is_u32; lia). unfold STACK_MARGIN.
  rewrite (u32_id (sp s - 64)) by (dlay; unfold is_u32, two31, two32 in *; lia).
  unfold bind, throw_if. replace (_ >=? _) with true by lia. reflexivity.
Qed.

Definition finish_array (s : rt) (bytes : Z) (k : Z -> RM unit) : RM unit :=
  k (hp s);;; put (set_hp (hp s + bytes));;; (if heap_scopes s then ret tt else pushTracker bytes).

Lemma u64_small x : 0 <= x < two31 -> u64 x = x.
Proof. intros. unfold u64, two64, two31 in *. apply Z.mod_small. lia. Qed.

Lemma gen_ok s dims z k : I s -> 64 <= sp s -> Forall is_i32 dims -> (2 <= length dims)%nat -> pos dims ->
  hp s + 4 * total_cells (rev dims) < sp s - 64 ->
  exists m, generateFullArray dims z k s =
    finish_array s (4 * total_cells (rev dims)) k (set_mem m s) /\
    outside (mem s) m (hp s) (hp s + 4 * total_cells (rev dims)) /\
    shape (direct_arrays s) m (hp s) (rev dims) 0 (4 * indirections (rev dims)) /\
    (z = true -> forall x, hp s + 4 * indirections (rev dims) <= x < hp s + 4 * total_cells (rev dims) -> m x = 0).
Proof.
  intros Hs Hsp HI Hlen HP H. destruct dims as [|d0 ds]; [cbn [length] in Hlen; lia|].
  inversion HI; subst. inversion HP; subst.
  pose proof (proj2 (pos_rev _) HP) as HPR.
  pose proof (total_pos _ HPR) as HT. pose proof (indirections_nonneg _ HPR) as HV.
  pose proof (elements_pos _ HPR) as HE.
  unfold generateFullArray. replace (d0 <=? 0) with false by lia.
  rewrite full_size by (auto; lia). destruct (pos_dec ds) as [_|HP0]; [|contradiction].
  destruct Hs as [L P].
  assert (HTe : total_cells (rev (d0 :: ds)) = indirections (rev (d0 :: ds)) + elements (rev (d0 :: ds))) by reflexivity.
  set (sizes := rev (d0 :: ds)) in *. set (T := total_cells sizes) in *.
  assert (HB : 0 <= hp s /\ sp s < mem_size s /\ mem_size s < two31) by (dlay; lia).
  assert (Ht : two31 < two32) by (unfold two31, two32; lia).
  replace (T <? two32) with true by lia.
  unfold u32_mul_safe. rewrite (u32_id T) by (unfold is_u32; lia). change (u32 4) with 4.
  replace (T * 4 <? two32) with true by lia. cbn [negb].
  erewrite bind_ok by reflexivity. unfold u32_add_safe. rewrite (u32_id (T * 4)) by (unfold is_u32; lia).
  rewrite (u32_id (hp s)) by (unfold is_u32; lia).
  rewrite ?(u32_id (T * 4)) by (unfold is_u32; lia).
  replace (hp s + T * 4 <? two32) with true by lia. cbn [negb].
  rewrite (u32_id (hp s + T * 4)) by (unfold is_u32; lia). unfold STACK_MARGIN.
  rewrite (u32_id (sp s - 64)) by (unfold is_u32; lia).
  erewrite bind_ok by (unfold throw_if; replace (hp s + T * 4 >=? sp s - 64) with false by lia; reflexivity).
  rewrite (wrap32_id (4 * indirections sizes)) by (unfold is_i32; lia).
  rewrite (u32_id (T * 4 - 4 * indirections sizes)) by (unfold is_u32; lia).
  set (m0 := if z then fill_bytes (mem s) (hp s + 4 * indirections sizes) (T * 4 - 4 * indirections sizes) 0 else mem s).
  erewrite (bind_ok _ _ _ _ _ _ tt (set_mem m0 s)).
  2:{ unfold m0. destruct z; [|unfold ret; now rewrite set_mem_id].
      unfold clear. replace (_ <=? 0) with false by lia. rewrite in_mem_true by lia. reflexivity. }
  assert (O0 : outside (mem s) m0 (hp s) (hp s + 4 * T)).
  { unfold m0. destruct z; [|apply outside_refl]. intros x Hx. unfold fill_bytes.
    replace (_ && _) with false by lia. reflexivity. }
  assert (Z0 : z = true -> forall x, hp s + 4 * indirections sizes <= x < hp s + 4 * T -> m0 x = 0).
  { intros -> x Hx. unfold m0, fill_bytes. replace (_ && _) with true by lia. reflexivity. }
  assert (G : exists m, (if direct_arrays s
           then (r <- absolute_iv (hp s) (d0 :: ds) (length (d0 :: ds) - 1)%nat 0 (4 * indirections sizes);;
                 let '(_, iv, data) := r in
                 assert_ ((iv =? 4 * indirections sizes) && (data =? wrap32 (T * 4))))
           else (offs <- relative_ivs (hp s) (d0 :: ds);; assert_ (u64 offs =? T))) (set_mem m0 s) = Ok tt (set_mem m s) /\
         outside m0 m (hp s) (hp s + 4 * indirections sizes) /\
         shape (direct_arrays s) m (hp s) sizes 0 (4 * indirections sizes)).
  { destruct (direct_arrays s).
    - assert (Hab : abs_sizes (d0 :: ds) (length (d0 :: ds) - 1) = sizes).
      { unfold abs_sizes. replace (S (length (d0 :: ds) - 1)) with (length (d0 :: ds)) by (cbn [length]; lia).
        rewrite firstn_all. reflexivity. }
      destruct (absolute_iv_ok s (hp s) ltac:(lia) ltac:(lia) (d0 :: ds) HP (length (d0 :: ds) - 1)%nat
                 ltac:(cbn [length]; lia) m0 0 (4 * indirections sizes)) as (m & E & O & S);
        rewrite ?Hab; try lia.
      rewrite Hab in *. exists m. split; [|split; [eapply outside_sub; [exact O|lia|lia]|exact S]].
      erewrite bind_ok by exact E.
      rewrite (wrap32_id (T * 4)) by (unfold is_i32; lia).
      match goal with |- assert_ ?b _ = _ => replace b with true by lia end. reflexivity.
    - assert (Hl : (2 <= length sizes)%nat) by (unfold sizes; rewrite rev_length; exact Hlen).
      destruct (inner_iv_ok s (hp s) ltac:(lia) ltac:(lia) sizes HPR m0 0 (indirections sizes))
        as (m & E & O & S); try lia; auto.
      exists m. split; [|split; [eapply outside_sub; [exact O|lia|lia]|]].
      + unfold relative_ivs. fold sizes.
        rewrite calc_indirection_eq by (auto; lia).
        erewrite bind_ok by (erewrite bind_ok by exact E; reflexivity). cbn [fst snd].
        rewrite u64_small by lia. replace (_ =? T) with true by lia. reflexivity.
      + replace (4 * 0) with 0 in S by lia. exact S. }
  destruct G as (m & E & O & S). exists m.
  split; [|split; [|split]].
  - erewrite bind_ok by exact E. unfold finish_array.
    rewrite (wrap32_id (hp s + T * 4)) by (unfold is_i32; lia). replace (T * 4) with (4 * T) by lia. reflexivity.
  - eapply outside_trans; [exact O0|]. eapply outside_sub; [exact O|lia|lia].
  - exact S.
  - intros Hz x Hx. rewrite O by lia. now apply Z0.
Qed.
