(* Arrays created by the host: HeapAlloc2dArray, AllocArray. *)
From Verif Require Import Base Base_Proofs Rt_Model Array_Model Interp_Model Rt_Spec Rt_Proofs Array_Spec
  Hist_Proofs Array_Proofs Array_Exec.
From Coq Require Import ZifyBool.
Ltac Zify.zify_post_hook ::= Z.div_mod_to_equations.

Lemma finish2 s m T : I s -> 0 < T -> hp s + T + 64 <= sp s ->
  exists m2, finish_array s T (fun _ => ret tt) (set_mem m s) =
    Ok tt (set_hp (hp s + T + extra s) (set_mem m2 s)) /\ outside m m2 (hp s + T) (hp s + T + extra s).
Proof.
  intros [L P] HT Hr. assert (HB : 0 <= hp s /\ sp s < mem_size s /\ mem_size s + 128 <= two31) by (dlay; lia).
  unfold finish_array, extra. erewrite bind_ok by reflexivity. erewrite bind_ok by reflexivity.
  destruct (heap_scopes s) eqn:EH.
  - exists m. split; [|apply outside_refl]. unfold ret. replace (hp s + T + 0) with (hp s + T) by lia. reflexivity.
  - rewrite pushTracker_ok by (wsimp; auto; lia). wsimp.
    exists (store32 m (hp s + T) T). split; [reflexivity|]. intros x Hx. apply store32_out. lia.
Qed.

(* Sequential cell copy. *)
Fixpoint cp (l : list Z) (a : Z) : RM unit :=
  match l with [] => ret tt | c :: l' => wr32 a c;;; cp l' (a + 4) end.
Lemma cp_ok l : forall a m s, 0 <= a -> a + 4 * Z.of_nat (length l) <= mem_size s ->
  exists m', cp l a (set_mem m s) = Ok tt (set_mem m' s) /\
    outside m m' a (a + 4 * Z.of_nat (length l)) /\
    forall j, (j < length l)%nat -> is_i32 (nth j l 0) -> load32 m' (a + 4 * Z.of_nat j) = nth j l 0.
Proof.
  induction l as [|c l IH]; intros a m s H1 H2.
  - exists m. split; [reflexivity|]. split; [apply outside_refl|]. intros j Hj. cbn [length] in Hj. lia.
  - cbn [length] in *. cbn [cp]. erewrite bind_ok by (apply wr32_ok; wsimp; lia). rewrite set_mem_mem, set_mem_set.
    destruct (IH (a + 4) (store32 m a c) s) as (m' & E & O & R); try lia.
    exists m'. split; [exact E|]. split.
    + intros x Hx. rewrite O by lia. apply store32_out. lia.
    + intros [|j] Hj Hi; cbn [nth] in *.
      * replace (a + 4 * Z.of_nat 0) with a by lia.
        rewrite (load32_ext _ (store32 m a c)) by (intros x Hx; apply O; lia).
        rewrite load32_store32_same. now apply wrap32_id.
      * rewrite <- R; auto; [|lia]. f_equal. lia.
Qed.

Section Rows.
Variables (s : rt) (len stride h2 : Z).
Hypothesis HI : I s.
Hypothesis Hl : 0 < len.
Hypothesis Hst : 0 < stride.
Let T := len * (1 + stride).
Hypothesis Hroom : hp s + 4 * T <= h2.
Hypothesis Hh2 : h2 <= sp s.

Let st2 (m : memory) : rt := set_hp h2 (set_mem m s).

Lemma init_rows_ok rows : forall i m, 0 <= i -> i + Z.of_nat (length rows) = len ->
  Forall (fun r => Z.of_nat (length r) = stride) rows ->
  shape (direct_arrays s) m (hp s) [len; stride] 0 (4 * len) ->
  exists m', init_rows rows i (hp s) (st2 m) = Ok tt (st2 m') /\
    outside m m' (hp s + 4 * len + i * (4 * stride)) (hp s + 4 * T) /\
    forall k j, (k < length rows)%nat -> (j < length (nth k rows []))%nat -> is_i32 (nth j (nth k rows []) 0) ->
      load32 m' (hp s + 4 * len + (i + Z.of_nat k) * (4 * stride) + 4 * Z.of_nat j) = nth j (nth k rows []) 0.
Proof.
  destruct HI as [L P].
  assert (HB : 0 <= hp s /\ sp s < mem_size s /\ mem_size s + 128 <= two31) by (dlay; lia).
  induction rows as [|row rows IH]; intros i m Hi Hlen HR HS.
  - exists m. split; [reflexivity|]. split; [apply outside_refl|]. intros k j Hk. cbn [length] in Hk. lia.
  - assert (HR1 : Z.of_nat (length row) = stride) by (now inversion HR).
    assert (HR2 : Forall (fun r => Z.of_nat (length r) = stride) rows) by (now inversion HR). clear HR. cbn [length] in Hlen.
    assert (Hne : [stride] <> []) by discriminate.
    pose proof (proj1 (shape_cons _ _ _ _ _ _ _ Hne) HS i ltac:(lia)) as HS0.
    cbn [indirections elements root] in HS0. destruct HS0 as [HS1 _].
    pose proof (mul_step i len (4 * stride) ltac:(lia) ltac:(lia)) as M. assert (0 <= i * (4 * stride)) by nia.
    assert (Htgt : 0 <= 4 * len + i * (4 * stride) /\ 4 * len + i * (4 * stride) + 4 * stride <= 4 * T) by (unfold T; lia).
    cbn [init_rows].
    erewrite bind_ok by (unfold rd32; rewrite in_mem_true by (unfold st2; wsimp; unfold T in *; lia); reflexivity).
    replace (hp s + (0 + 4 * i)) with (hp s + 4 * i) in HS1 by lia. change (mem (st2 m)) with m.
    erewrite bind_ok by reflexivity. cbn [direct_arrays st2 set_hp set_mem].
    set (tgt := hp s + 4 * len + i * (4 * stride)).
    replace (if direct_arrays s then _ else _) with tgt.
    2:{ rewrite HS1. unfold enc, tgt. destruct (direct_arrays s); [lia|].
        rewrite (wrap32_id (hp s + i * 4 + _)) by (unfold is_i32; lia). lia. }
    assert (Hb : local_bad (st2 m) tgt = false).
    { unfold local_bad, st2. wsimp. unfold tgt. rewrite u32_id by (unfold is_u32, two31, two32 in *; lia). lia. }
    erewrite bind_ok by (unfold LocalToPhysAddr; rewrite Hb; reflexivity).
    change (fix cp (l : list Z) (a : Z) {struct l} : rt -> res rt unit :=
       match l with [] => ret tt | c :: l' => wr32 a c;;; cp l' (a + 4) end) with cp.
    destruct (cp_ok row tgt m (set_hp h2 s)) as (m1 & E1 & O1 & R1); [unfold tgt; lia|wsimp; rewrite HR1; unfold tgt; lia|].
    rewrite HR1 in O1.
    erewrite (bind_ok _ _ _ _ _ _ tt (st2 m1)) by exact E1.
    destruct (IH (i + 1) m1) as (m2 & E2 & O2 & R2); try lia; auto.
    { apply (shape_ext _ m); auto; [repeat constructor; lia|].
      change (indirections [len; stride]) with (len * (1 + 0)). intros x Hx. apply O1. unfold tgt. lia. }
    exists m2. split; [exact E2|].
    assert (O2' : outside m1 m2 (tgt + 4 * stride) (hp s + 4 * T)) by (eapply outside_sub; [exact O2|unfold tgt; lia|lia]).
    split.
    + intros x Hx. rewrite O2' by (unfold tgt; lia). apply O1. unfold tgt. lia.
    + intros [|k] j Hk Hj Hv; cbn [nth length] in *.
      * rewrite <- (R1 j Hj Hv). rewrite (load32_ext m2 m1).
        -- f_equal. unfold tgt. lia.
        -- intros x Hx. apply O2'. unfold tgt. lia.
      * rewrite <- (R2 k j); auto; [|lia]. f_equal. lia.
Qed.
End Rows.

Lemma alloc2d_ok s len stride rows : I s -> 64 <= sp s -> 0 < len < two31 -> 0 < stride < two31 ->
  hp s + 4 * (len * (1 + stride)) + 64 < sp s ->
  Z.of_nat (length rows) = len -> Forall (fun r => Z.of_nat (length r) = stride) rows ->
  exists s', HeapAlloc2dArray len stride (Some rows) s = Ok (hp s) s' /\
    hp s' = hp s + 4 * (len * (1 + stride)) + extra s /\ sp s' = sp s /\
    (forall x, x < hp s \/ hp s' <= x -> mem s' x = mem s x) /\
    array_at (direct_arrays s) (mem s') (hp s) [len; stride] (4 * (len * (1 + stride))) /\
    forall i j, (i < length rows)%nat -> (j < length (nth i rows []))%nat -> is_i32 (nth j (nth i rows []) 0) ->
      load32 (mem s') (locate (direct_arrays s) (mem s') (hp s) [Z.of_nat i; Z.of_nat j]) = nth j (nth i rows []) 0.
Proof.
  intros HI H64 Hl Hst Hroom Hrows HF. assert (HI' := HI). destruct HI' as [L P].
  assert (HB : 0 <= hp s /\ sp s < mem_size s /\ mem_size s + 128 <= two31) by (dlay; lia).
  assert (HP : pos [len; stride]) by (repeat constructor; lia).
  assert (Htot : total_cells [len; stride] = len * (1 + stride)).
  { unfold total_cells. cbn [indirections elements]. lia. }
  set (T := len * (1 + stride)) in *. assert (HT : 0 < T) by (unfold T; nia).
  destruct (gen_ok s [stride; len] false (fun _ => ret tt)) as (m & E & O & S & _); auto.
  { repeat constructor; unfold is_i32; lia. } { repeat constructor; lia. } { cbn [rev app]. lia. }
  cbn [rev app] in *. rewrite Htot in *.
  change (indirections [len; stride]) with (len * (1 + 0)) in S. replace (4 * (len * (1 + 0))) with (4 * len) in S by lia.
  destruct (finish2 s m (4 * T)) as (m2 & E2 & O2); auto; try lia.
  assert (HX : 0 <= extra s <= 4) by (unfold extra; destruct (heap_scopes s); lia).
  unfold HeapAlloc2dArray.
  replace ((len >? 2147483647) || (stride >? 2147483647)) with false by (unfold two31 in *; lia).
  erewrite bind_ok by reflexivity. rewrite <- E in E2. erewrite bind_ok by exact E2.
  assert (Hb : local_bad (set_hp (hp s + 4 * T + extra s) (set_mem m2 s)) (hp s) = false).
  { unfold local_bad. wsimp. rewrite u32_id by (unfold is_u32, two31, two32 in *; lia). lia. }
  erewrite bind_ok by (unfold LocalToPhysAddr; rewrite Hb; reflexivity).
  assert (HlT : len + len * stride = T) by (unfold T; lia). assert (0 < len * stride) by nia.
  assert (S2 : shape (direct_arrays s) m2 (hp s) [len; stride] 0 (4 * len)).
  { apply (shape_ext _ m); auto. change (indirections [len; stride]) with (len * (1 + 0)).
    intros x Hx. apply O2. lia. }
  destruct (init_rows_ok s len stride (hp s + 4 * T + extra s) HI ltac:(lia) ltac:(lia) ltac:(fold T; lia) ltac:(lia)
             rows 0 m2) as (m3 & E3 & O3 & R3); try lia; auto.
  fold T in O3.
  erewrite bind_ok by exact E3. eexists. split; [reflexivity|]. wsimp.
  assert (S3 : shape (direct_arrays s) m3 (hp s) [len; stride] 0 (4 * indirections [len; stride])).
  { replace (4 * indirections [len; stride]) with (4 * len) by (cbn [indirections]; lia).
    apply (shape_ext _ m2); auto. change (indirections [len; stride]) with (len * (1 + 0)).
    intros x Hx. apply O3. lia. }
  split; [reflexivity|]. split; [reflexivity|].
  split. { intros x Hx. rewrite O3 by lia. rewrite O2 by lia. apply O. lia. }
  split. { apply shape_array; auto; [discriminate|]. rewrite Htot. lia. }
  intros i j Hi Hj Hv.
  assert (Hr : in_range [len; stride] [Z.of_nat i; Z.of_nat j]).
  { assert (Z.of_nat (length (nth i rows [])) = stride).
    { rewrite Forall_forall in HF. apply HF. now apply nth_In. }
    repeat constructor; lia. }
  pose proof (shape_locate (direct_arrays s) m3 (hp s) [len; stride] HP 0 (4 * indirections [len; stride]) _ Hr ltac:(discriminate) S3) as EL.
  cbn [root] in EL. replace (hp s + 0) with (hp s) in EL by lia. rewrite EL.
  rewrite <- (R3 i j Hi Hj Hv). f_equal. cbn [lin elements indirections]. lia.
Qed.

Lemma host_2d s len stride rows :
  layout s -> pointers_ok s -> is_i32 (frm s) -> is_i32 (hp_scope s) ->
  64 <= sp s -> 0 < len < two31 -> 0 < stride < two31 ->
  hp s + 4 * (len * (1 + stride)) + 64 < sp s ->
  Z.of_nat (length rows) = len -> Forall (fun r => Z.of_nat (length r) = stride) rows ->
  exists s', HeapAlloc2dArray len stride (Some rows) s = Ok (hp s) s' /\
    hp s' = hp s + 4 * (len * (1 + stride)) + (if heap_scopes s then 0 else 4) /\ sp s' = sp s /\
    (forall x, x < hp s \/ hp s' <= x -> mem s' x = mem s x) /\
    array_at (direct_arrays s) (mem s') (hp s) [len; stride] (4 * (len * (1 + stride))) /\
    forall i j, (i < length rows)%nat -> (j < length (nth i rows []))%nat ->
      is_i32 (nth j (nth i rows []) 0) ->
      load32 (mem s') (locate (direct_arrays s) (mem s') (hp s) [Z.of_nat i; Z.of_nat j])
        = nth j (nth i rows []) 0.
Proof. intros L P F S. apply alloc2d_ok. now apply ok_I. Qed.

Lemma host_example : exists s rows, fresh s /\ layout s /\ pointers_ok s /\ is_i32 (frm s) /\
  is_i32 (hp_scope s) /\ 64 <= sp s /\ hp s + 4 * (2 * (1 + 3)) + 64 < sp s /\
  Z.of_nat (length rows) = 2 /\ Forall (fun r : list Z => Z.of_nat (length r) = 3) rows.
Proof.
  exists demo_rt, [[1; 2; 3]; [4; 5; 6]]. split; [apply demo_fresh|].
  split. { constructor; vm_compute; (reflexivity || discriminate). }
  split. { constructor; vm_compute; discriminate. }
  unfold is_i32. repeat split; try (vm_compute; (reflexivity || discriminate)). repeat constructor.
Qed.
