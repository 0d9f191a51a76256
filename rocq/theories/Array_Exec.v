(* Array creation as a script sees it: the GENARRAY instruction. *)
From Verif Require Import Base Base_Proofs Rt_Model Array_Model Interp_Model Rt_Spec Rt_Proofs Array_Spec
  Hist_Proofs Array_Proofs.
From Coq Require Import ZifyBool.
Ltac Zify.zify_post_hook ::= Z.div_mod_to_equations.

Lemma rd_cells_ok n : forall a s, 0 <= a -> a + 4 * Z.of_nat n <= mem_size s ->
  rd_cells a n s = Ok (cells_at (mem s) a n) s.
Proof.
  induction n as [|n IH]; intros a s H1 H2; [reflexivity|]. cbn [rd_cells cells_at].
  erewrite bind_ok by (unfold rd32; rewrite in_mem_true by lia; reflexivity).
  erewrite bind_ok by (apply IH; lia). reflexivity.
Qed.
Lemma cells_at_length m n : forall a, length (cells_at m a n) = n.
Proof. induction n; intros; cbn; auto. Qed.
Lemma cells_at_i32 m n : forall a, Forall is_i32 (cells_at m a n).
Proof. induction n; intros; cbn [cells_at]; constructor; auto. apply load32_range. Qed.
Lemma cells_at_last m n : forall a, nth n (cells_at m a (S n)) 0 = load32 m (a + 4 * Z.of_nat n).
Proof.
  induction n as [|n IH]; intros a; [cbn; f_equal; lia|].
  change (cells_at m a (S (S n))) with (load32 m a :: cells_at m (a + 4) (S n)).
  cbn [nth]. rewrite IH. f_equal. lia.
Qed.

Lemma set_sp_same v s : v = sp s -> set_sp v s = s.
Proof. intros ->. now destruct s. Qed.
Lemma pop_n_ok n : forall s, layout s -> 0 <= sp s -> sp s + 4 * Z.of_nat n < stp s + 4 ->
  pop_n n s = Ok tt (set_sp (sp s + 4 * Z.of_nat n) s).
Proof.
  induction n as [|n IH]; intros s L H1 H2.
  - cbn [pop_n]. unfold ret. f_equal. symmetry. apply set_sp_same. lia.
  - cbn [pop_n]. erewrite bind_ok by (apply popStack_at; auto; lia).
    rewrite IH; [|destruct L; now constructor|wsimp; lia|wsimp; lia].
    f_equal. unfold set_sp. wsimp. f_equal. lia.
Qed.

Lemma acquire_at s a n : script_address s a -> script_address s (a + n - 1) -> 0 < n -> is_i32 (a + n - 1) ->
  acquireAddrRange a n s = Ok a s.
Proof.
  intros H1 H2 H3 H4. unfold acquireAddrRange. erewrite bind_ok by (now apply throwIfBadAddress_ok).
  replace (n =? 0) with false by lia. rewrite wrap32_id by assumption.
  erewrite bind_ok by (now apply throwIfBadAddress_ok). reflexivity.
Qed.

(* What a successful generateArray does. *)
Definition extra (s : rt) : Z := if heap_scopes s then 0 else 4.
Definition made (s s' : rt) (sizes : list Z) (res_cell : Z) (z : bool) : Prop :=
  let T := 4 * total_cells sizes in
  hp s' = hp s + T + extra s /\ sp s' = sp s /\ frm s' = frm s /\ hp_scope s' = hp_scope s /\
  same_plugin s s' /\
  load32 (mem s') res_cell = hp s /\
  (forall x, x < hp s \/ hp s' <= x -> x < res_cell \/ res_cell + 4 <= x -> mem s' x = mem s x) /\
  array_at (direct_arrays s) (mem s') (hp s) sizes T /\
  (z = true -> all_zero (direct_arrays s) (mem s') (hp s) sizes).

Lemma pushTracker_ok s n : heap_scopes s = false -> 0 <= n < two31 -> 0 <= hp s -> hp s + 64 <= sp s -> sp s < mem_size s ->
  mem_size s + 128 <= two31 ->
  pushTracker n s = Ok tt (set_hp (hp s + 4) (set_mem (store32 (mem s) (hp s) n) s)).
Proof.
  intros H1 H2 H3 H4 H5 H6. unfold pushTracker. erewrite bind_ok by reflexivity.
  rewrite H1. erewrite bind_ok by reflexivity.
  rewrite u32_id by (unfold is_u32, two31, two32 in *; lia).
  replace (n >? 2147483647) with false by (unfold two31 in *; lia). erewrite bind_ok by reflexivity.
  rewrite (wrap32_id (sp s - hp s)) by bnd. unfold STACK_MARGIN.
  replace (sp s - hp s <? 64) with false by lia. erewrite bind_ok by reflexivity.
  rewrite (wrap32_id n) by bnd.
  erewrite bind_ok by (apply wr32_ok; lia). unfold put. wsimp. rewrite wrap32_id by bnd. reflexivity.
Qed.

(* array_at survives writes outside the block. *)
Lemma shape_array_ext direct m m' addr sizes : pos sizes ->
  (forall x, addr <= x < addr + 4 * indirections sizes -> m' x = m x) ->
  shape direct m addr sizes 0 (4 * indirections sizes) -> shape direct m' addr sizes 0 (4 * indirections sizes).
Proof. intros HP H. apply shape_ext; auto. intros; apply H; lia. Qed.

Lemma load32_zero m a : (forall x, a <= x < a + 4 -> m x = 0) -> load32 m a = 0.
Proof. intros H. unfold load32. rewrite !H by lia. reflexivity. Qed.

Lemma shape_zero direct m addr sizes : pos sizes -> sizes <> [] ->
  shape direct m addr sizes 0 (4 * indirections sizes) ->
  (forall x, addr + 4 * indirections sizes <= x < addr + 4 * total_cells sizes -> m x = 0) ->
  all_zero direct m addr sizes.
Proof.
  intros HP Hne HS HZ idx Hi. apply load32_zero. intros x Hx. apply HZ.
  assert (Hr : addr = addr + root sizes 0 (4 * indirections sizes)).
  { unfold root. destruct sizes as [|? [|]]; cbn [indirections]; lia. }
  rewrite Hr in Hx. rewrite (shape_locate direct m addr sizes HP) in Hx; auto.
  pose proof (lin_range _ _ Hi). unfold total_cells. lia.
Qed.

Lemma finish_ok s m sizes c z : I s -> heap_scopes s = heap_scopes s -> pos sizes -> sizes <> [] ->
  sp s <= c -> c + 4 <= mem_size s ->
  hp s + 4 * total_cells sizes + 64 <= sp s ->
  outside (mem s) m (hp s) (hp s + 4 * total_cells sizes) ->
  shape (direct_arrays s) m (hp s) sizes 0 (4 * indirections sizes) ->
  (z = true -> forall x, hp s + 4 * indirections sizes <= x < hp s + 4 * total_cells sizes -> m x = 0) ->
  exists s', finish_array s (4 * total_cells sizes) (fun v => wr32 c v) (set_mem m s) = Ok tt s' /\ made s s' sizes c z.
Proof.
  intros [L P] _ HP Hne Hc1 Hc2 Hroom HO HS HZ. pose proof (total_pos _ HP) as HT.
  pose proof (indirections_nonneg _ HP). pose proof (elements_pos _ HP).
  assert (HTe : total_cells sizes = indirections sizes + elements sizes) by reflexivity.
  set (T := total_cells sizes) in *.
  assert (HB : 0 <= hp s /\ sp s < mem_size s /\ mem_size s + 128 <= two31) by (dlay; lia).
  unfold finish_array. erewrite bind_ok by (apply wr32_ok; wsimp; lia). wsimp.
  erewrite bind_ok by reflexivity. rewrite set_mem_set.
  set (m1 := store32 m c (hp s)).
  assert (HS1 : shape (direct_arrays s) m1 (hp s) sizes 0 (4 * indirections sizes)).
  { apply (shape_array_ext _ m); auto. intros x Hx. apply store32_out. lia. }
  assert (HZ1 : z = true -> forall x, hp s + 4 * indirections sizes <= x < hp s + 4 * T -> m1 x = 0).
  { intros Hz x Hx. unfold m1. rewrite store32_out by lia. now apply HZ. }
  assert (HR1 : load32 m1 c = hp s).
  { unfold m1. rewrite load32_store32_same. apply wrap32_id. bnd. }
  assert (HO1 : forall x, x < hp s \/ hp s + 4 * T <= x -> x < c \/ c + 4 <= x -> m1 x = mem s x).
  { intros x H1 H2. unfold m1. rewrite store32_out by lia. apply HO. lia. }
  unfold made, extra. fold T. destruct (heap_scopes s) eqn:EH.
  - eexists. split; [reflexivity|]. wsimp.
    assert (HA : array_at (direct_arrays s) m1 (hp s) sizes (4 * T)) by (apply shape_array; auto; fold T; lia).
    split; [lia|]. split; [reflexivity|]. split; [reflexivity|]. split; [reflexivity|].
    split; [repeat split; auto|]. split; [exact HR1|].
    split; [intros x H1 H2; apply HO1; lia|]. split; [exact HA|]. intros Hz. apply shape_zero; auto.
  - rewrite pushTracker_ok; wsimp; try lia; auto. eexists. split; [reflexivity|]. wsimp.
    set (m2 := store32 m1 (hp s + 4 * T) (4 * T)).
    assert (HS2 : shape (direct_arrays s) m2 (hp s) sizes 0 (4 * indirections sizes)).
    { apply (shape_array_ext _ m1); auto. intros x Hx. apply store32_out. lia. }
    assert (HA : array_at (direct_arrays s) m2 (hp s) sizes (4 * T)) by (apply shape_array; auto; fold T; lia).
    split; [lia|]. split; [reflexivity|]. split; [reflexivity|]. split; [reflexivity|].
    split; [repeat split; auto|].
    split. { unfold m2. rewrite load32_store32_other by lia. exact HR1. }
    split. { intros x H1 H2. unfold m2. rewrite store32_out by lia. apply HO1; lia. }
    split; [exact HA|]. intros Hz. apply shape_zero; auto. intros x Hx. unfold m2.
    rewrite store32_out by (fold T in Hx; lia). now apply HZ1.
Qed.

(* One dimension. *)
Lemma gen1_ok s z : I s -> 0 <= sp s -> let v := load32 (mem s) (sp s) in
  0 < v -> hp s + 4 * v < sp s -> (heap_scopes s = false -> hp s + 4 * v + 64 <= sp s) -> sp s + 4 <= mem_size s ->
  exists s', generateArray 1 (sp s) z s = Ok tt s' /\ made s s' [v] (sp s) z.
Proof.
  intros [L P] _ v Hv H1 H2 H3.
  assert (HB : 0 <= hp s /\ sp s < mem_size s /\ mem_size s + 128 <= two31) by (dlay; lia).
  unfold generateArray. change (1 =? 1) with true. cbv iota.
  erewrite bind_ok by (unfold rd32; rewrite in_mem_true by lia; reflexivity). fold v.
  rewrite u32_id by (unfold is_u32, two31, two32 in *; lia).
  replace (v <=? 0) with false by lia. unfold u32_mul_safe.
  rewrite u32_id by (unfold is_u32, two31, two32 in *; lia). change (u32 4) with 4.
  replace (v * 4 <? two32) with true by (unfold two31, two32 in *; lia). cbn [negb].
  rewrite u32_id by (unfold is_u32, two31, two32 in *; lia).
  erewrite bind_ok by reflexivity.
  erewrite bind_ok by (apply wr32_ok; lia).
  replace (hp s + v * 4 >=? sp s) with false by lia. erewrite bind_ok by reflexivity.
  rewrite (wrap32_id (hp s + v * 4)) by bnd. erewrite bind_ok by reflexivity.
  set (m1 := store32 (mem s) (sp s) (hp s)).
  assert (HR1 : load32 m1 (sp s) = hp s).
  { unfold m1. rewrite load32_store32_same. apply wrap32_id. bnd. }
  (* tracker *)
  set (s1 := set_hp _ _).
  assert (E2 : exists m2, (if heap_scopes s then ret tt else pushTracker (v * 4)) s1 =
            Ok tt (set_hp (hp s + 4 * v + extra s) (set_mem m2 s)) /\
            outside m1 m2 (hp s + 4 * v) (hp s + 4 * v + extra s)).
  { unfold s1, extra. destruct (heap_scopes s) eqn:EH.
    - exists m1. split; [|apply outside_refl]. unfold ret. f_equal.
      replace (hp s + 4 * v + 0) with (hp s + v * 4) by lia. reflexivity.
    - specialize (H2 eq_refl). rewrite pushTracker_ok by (wsimp; auto; lia). wsimp.
      exists (store32 m1 (hp s + v * 4) (v * 4)). split.
      + f_equal. replace (hp s + 4 * v + 4) with (hp s + v * 4 + 4) by lia. reflexivity.
      + intros x Hx. apply store32_out. lia. }
  destruct E2 as (m2 & E2 & O2). erewrite bind_ok by exact E2.
  assert (HX : 0 <= extra s /\ hp s + 4 * v + extra s <= sp s).
  { unfold extra. destruct (heap_scopes s); [lia|]. specialize (H2 eq_refl). lia. }
  assert (HR2 : load32 m2 (sp s) = hp s).
  { rewrite <- HR1. apply load32_ext. intros x Hx. apply O2. lia. }
  assert (HP1 : pos [v]) by (repeat constructor; assumption).
  set (m3 := if z then fill_bytes m2 (hp s) (v * 4) 0 else m2).
  exists (set_hp (hp s + 4 * v + extra s) (set_mem m3 s)). split.
  { unfold m3. destruct z; [|reflexivity].
    erewrite bind_ok by (unfold rd32; rewrite in_mem_true by (wsimp; lia); reflexivity). wsimp. rewrite HR2.
    unfold clear. replace (v * 4 <=? 0) with false by lia. rewrite in_mem_true by (wsimp; lia). reflexivity. }
  assert (O3 : outside m2 m3 (hp s) (hp s + 4 * v)).
  { unfold m3. destruct z; [|apply outside_refl]. intros x Hx. unfold fill_bytes.
    replace (_ && _) with false by lia. reflexivity. }
  unfold made. wsimp. rewrite total_single.
  split; [lia|]. split; [reflexivity|]. split; [reflexivity|]. split; [reflexivity|].
  split; [repeat split|].
  split. { rewrite <- HR2. apply load32_ext. intros x Hx. apply O3. lia. }
  split. { intros x A B. rewrite O3 by lia. rewrite O2 by lia. unfold m1. apply store32_out. lia. }
  split. { apply shape_array; auto; [discriminate|exact Logic.I|]. rewrite total_single. lia. }
  intros ->. apply shape_zero; auto; [discriminate|exact Logic.I|].
  rewrite total_single. change (indirections [v]) with 0. intros x Hx. unfold m3, fill_bytes.
  replace (_ && _) with true by lia. reflexivity.
Qed.

Lemma pushed_sizes_1 s : pushed_sizes s 1 = [load32 (mem s) (sp s)].
Proof. reflexivity. Qed.

Lemma gen_array_ok s n z : I s -> 1 <= n -> sp s + 4 * n <= mem_size s ->
  fits s n -> exists s', generateArray n (sp s) z s = Ok tt s' /\ made s s' (pushed_sizes s n) (sp s + 4 * (n - 1)) z.
Proof.
  intros Hs Hn Hm [HP HF]. assert (Hs' := Hs). destruct Hs' as [L P].
  assert (HB : 0 <= hp s /\ sp s < mem_size s /\ mem_size s + 128 <= two31) by (dlay; lia).
  assert (0 <= sp s) by (dlay; lia).
  destruct (Z.eq_dec n 1) as [->|Hn1].
  - rewrite pushed_sizes_1 in *. change (1 =? 1) with true in HF. cbv iota in HF. rewrite total_single in HF.
    replace (sp s + 4 * (1 - 1)) with (sp s) by lia. inversion HP; subst. apply gen1_ok; tauto.
  - replace (n =? 1) with false in HF by lia. unfold generateArray. replace (n =? 1) with false by lia.
    erewrite bind_ok by (apply rd_cells_ok; lia).
    set (dims := cells_at (mem s) (sp s) (Z.to_nat n)) in *.
    assert (Hsz : pushed_sizes s n = rev dims) by reflexivity. rewrite Hsz in *.
    assert (Hl : (2 <= length dims)%nat) by (unfold dims; rewrite cells_at_length; lia).
    assert (HPd : pos dims) by (apply pos_rev; exact HP).
    pose proof (total_pos _ HP) as HT.
    assert (Hne : rev dims <> []).
    { intros E. apply (f_equal (@length Z)) in E. rewrite rev_length in E. cbn [length] in E. lia. }
    destruct (gen_ok s dims z (fun v => wr32 (sp s + 4 * (n - 1)) v)) as (m & E & O & S & Zr); auto; try lia.
    { apply cells_at_i32. }
    rewrite E. apply (finish_ok s m); auto; lia.
Qed.

(* When it is not, the state is left alone except that the one-dimensional case has already
   replaced the size on the stack by the address (and may have moved the heap top). *)
Lemma gen_array_refuse s n z : I s -> hp s <= sp s -> 1 <= n -> 64 <= sp s -> sp s + 4 * n <= mem_size s ->
  ~ fits s n -> exists e s', generateArray n (sp s) z s = Fail e s' /\
    (1 < n -> s' = s) /\ unchanged_outside s s' (hp s) (sp s + 4 - hp s) /\ hp s <= hp s' /\ same_plugin s s' /\ sp s' = sp s /\ frm s' = frm s.
Proof.
  intros Hs Hhs Hn Hsp Hm HF. assert (Hs' := Hs). destruct Hs' as [L P].
  assert (HB : 0 <= hp s /\ sp s < mem_size s /\ mem_size s + 128 <= two31) by (dlay; lia).
  unfold fits in HF. destruct (Z.eq_dec n 1) as [->|Hn1].
  - rewrite pushed_sizes_1 in *. change (1 =? 1) with true in HF. cbv iota zeta in HF. rewrite total_single in HF.
    set (v := load32 (mem s) (sp s)) in *.
    assert (Hvi : is_i32 v) by apply load32_range.
    unfold generateArray. change (1 =? 1) with true. cbv iota.
    erewrite bind_ok by (unfold rd32; rewrite in_mem_true by lia; reflexivity). fold v.
    pose proof (u32_range v) as Hu. set (u := u32 v) in *.
    destruct (u <=? 0) eqn:E0.
    { exists INVALID_ARRAY_SIZE, s. split; [reflexivity|]. split; [lia|]. split; [intros x _; reflexivity|split; [lia|repeat constructor]]. }
    unfold u32_mul_safe. rewrite (u32_id u) by assumption. change (u32 4) with 4.
    destruct (u * 4 <? two32) eqn:E1; cbn [negb].
    2:{ exists ARRAY_TOO_BIG, s. split; [reflexivity|]. split; [lia|]. split; [intros x _; reflexivity|split; [lia|repeat constructor]]. }
    assert (u = v).
    { unfold u, u32, two32, two31, is_i32 in *. unb. lia. }
    rewrite (u32_id (u * 4)) by (unfold is_u32; lia).
    erewrite bind_ok by reflexivity. erewrite bind_ok by (apply wr32_ok; lia).
    unfold throw_if at 1.
    assert (UO : forall h, unchanged_outside s (set_hp h (set_mem (store32 (mem s) (sp s) (hp s)) s)) (hp s) (sp s + 4 - hp s) /\
                 unchanged_outside s (set_mem (store32 (mem s) (sp s) (hp s)) s) (hp s) (sp s + 4 - hp s)).
    { intros h. split; intros x Hx; wsimp; apply store32_out; lia. }
    destruct (hp s + u * 4 >=? sp s) eqn:E2.
    { do 2 eexists. split; [reflexivity|]. split; [lia|]. split; [apply (UO 0)|]. wsimp. split; [lia|repeat constructor]. }
    erewrite bind_ok by reflexivity. rewrite (wrap32_id (hp s + u * 4)) by bnd.
    erewrite bind_ok by reflexivity.
    destruct (heap_scopes s) eqn:EH.
    { exfalso. apply HF. split; [repeat constructor; lia|]. split; [lia|congruence]. }
    assert (ET : hp s + 4 * v + 64 > sp s).
    { destruct (Z_le_gt_dec (hp s + 4 * v + 64) (sp s)); [|lia]. exfalso. apply HF.
      split; [repeat constructor; lia|]. split; [lia|auto]. }
    exists TRACKER_BOUNDS. eexists. split.
    + unfold pushTracker, bind, get, assert_, put. wsimp. rewrite EH. cbn [negb]. unfold ret at 1, throw_if.
      rewrite (u32_id (u * 4)) by (unfold is_u32; lia).
      replace (u * 4 >? 2147483647) with false by (unfold two31 in *; lia). unfold ret at 1.
      rewrite (wrap32_id (sp s - (hp s + u * 4))) by bnd. unfold STACK_MARGIN.
      replace (sp s - (hp s + u * 4) <? 64) with true by lia. reflexivity.
    + split; [lia|]. split; [apply (proj1 (UO _))|]. wsimp. split; [lia|repeat constructor].
  - replace (n =? 1) with false in HF by lia. unfold generateArray. replace (n =? 1) with false by lia.
    assert (0 <= sp s) by lia.
    erewrite bind_ok by (apply rd_cells_ok; lia).
    set (dims := cells_at (mem s) (sp s) (Z.to_nat n)) in *.
    assert (Hsz : pushed_sizes s n = rev dims) by reflexivity. rewrite Hsz in *.
    assert (Hl : (2 <= length dims)%nat) by (unfold dims; rewrite cells_at_length; lia).
    assert (Hne : dims <> []) by (destruct dims; [cbn [length] in Hl; lia|discriminate]).
    assert (HI : Forall is_i32 dims) by apply cells_at_i32.
    assert (UO : unchanged_outside s s (hp s) (sp s + 4 - hp s)) by (intros x _; reflexivity).
    destruct (pos_dec dims) as [HPd|HPd].
    2:{ exists ARRAY_TOO_BIG, s. split; [apply gen_refuse; auto|]. split; [auto|]. split; [exact UO|split; [lia|repeat constructor]]. }
    destruct (Z_lt_ge_dec (hp s + 4 * total_cells (rev dims)) two32).
    2:{ exists ARRAY_TOO_BIG, s. split; [apply gen_refuse; auto; right; lia|]. split; [auto|]. split; [exact UO|split; [lia|repeat constructor]]. }
    exists HEAPLOW, s. split; [|split; [auto|split; [exact UO|split; [lia|repeat constructor]]]].
    apply gen_low; auto. destruct (Z_le_gt_dec (sp s - 64) (hp s + 4 * total_cells (rev dims))); [auto|].
    exfalso. apply HF. split; [apply pos_rev; exact HPd|lia].
Qed.

Section Genarray.
Variables (strict : bool) (fe : fenv) (nat_ : Z -> option native) (mi : meth).

Lemma exec_genarray s p a n z : layout s -> pointers_ok s -> 1 <= n -> sp s + 4 * n <= stp s ->
  exec strict fe nat_ mi (GENARRAY n z) (mkIst s p a) =
  match generateArray n (sp s) z s with
  | Ok _ s' => match pop_n (Z.to_nat (n - 1)) s' with
               | Ok _ s'' => Ok tt (mkIst s'' p a)
               | Fail e s'' => Fail e (mkIst s'' p a)
               | UB u => UB u
               end
  | Fail e s' => Fail e (mkIst s' p a)
  | UB u => UB u
  end.
Proof.
  intros L [P1 P2 P3] Hn Hsp.
  assert (HB : mem_size s + 128 <= two31 /\ 0 <= data_size s /\ stp s = mem_size s - 4) by (destruct L; auto).
  cbn [exec]. unfold lift. cbn [rts pri alt].
  erewrite bind_ok by reflexivity.
  rewrite (u32_id (n * 4)) by (unfold is_u32, two31, two32 in *; lia).
  erewrite bind_ok by (apply acquire_at; unfold script_address, in_gap, is_i32; unfold two31 in *; lia).
  rewrite (u32_id (n - 1)) by (unfold is_u32, two31, two32 in *; lia).
  unfold bind. destruct (generateArray n (sp s) z s) as [[] s'|e s'|u]; try reflexivity.
  destruct (pop_n (Z.to_nat (n - 1)) s') as [[] s''| |]; reflexivity.
Qed.

Lemma ok_I s : layout s -> pointers_ok s -> is_i32 (frm s) -> is_i32 (hp_scope s) -> I s.
Proof. intros L [] ? ?. split; auto. constructor; auto; dlay; lia. Qed.

Lemma genarray_granted s p a n z : layout s -> pointers_ok s -> is_i32 (frm s) -> is_i32 (hp_scope s) ->
  1 <= n -> sp s + 4 * n <= stp s -> fits s n ->
  exists s', exec strict fe nat_ mi (GENARRAY n z) (mkIst s p a) = Ok tt (mkIst s' p a) /\
    sp s' = sp s + 4 * (n - 1) /\
    exists s1, made s s1 (pushed_sizes s n) (sp s + 4 * (n - 1)) z /\ s' = set_sp (sp s + 4 * (n - 1)) s1.
Proof.
  intros L P F S Hn Hsp HF. rewrite exec_genarray by assumption.
  assert (HI := ok_I s L P F S).
  assert (HB : stp s = mem_size s - 4) by (destruct L; auto). assert (0 <= sp s) by (destruct L, P; lia).
  destruct (gen_array_ok s n z HI Hn ltac:(lia) HF) as (s1 & E & M). rewrite E.
  assert (M' := M). destruct M' as (M1 & M2 & M3 & M4 & [] & M6 & M7 & M8 & M9).
  assert (L1 : layout s1) by (destruct L; constructor; congruence || lia).
  rewrite pop_n_ok; [|assumption|lia|lia].
  eexists. split; [reflexivity|]. wsimp. replace (Z.of_nat (Z.to_nat (n - 1))) with (n - 1) by lia.
  rewrite M2. split; [reflexivity|]. exists s1. split; [exact M|reflexivity].
Qed.

Lemma genarray_succeeds s p a n z : layout s -> pointers_ok s -> is_i32 (frm s) -> is_i32 (hp_scope s) ->
  1 <= n -> sp s + 4 * n <= stp s -> fits s n ->
  exists s', exec strict fe nat_ mi (GENARRAY n z) (mkIst s p a) = Ok tt s'.
Proof.
  intros L P F S Hn Hsp HF. destruct (genarray_granted s p a n z L P F S Hn Hsp HF) as (s'' & E2 & _). eauto.
Qed.

(* The element view of a granted request, in terms of the state after the instruction. *)
Lemma genarray_layout s p a n z s' : layout s -> pointers_ok s -> is_i32 (frm s) -> is_i32 (hp_scope s) ->
  1 <= n -> sp s + 4 * n <= stp s -> 64 <= sp s ->
  exec strict fe nat_ mi (GENARRAY n z) (mkIst s p a) = Ok tt s' ->
  let sizes := pushed_sizes s n in
  let s2 := rts s' in
  let base := load32 (mem s2) (sp s2) in
  fits s n /\ base = hp s /\ sp s2 = sp s + 4 * (n - 1) /\
  hp s2 = base + 4 * total_cells sizes + (if heap_scopes s then 0 else 4) /\ pointers_ok s2 /\
  array_at (direct_arrays s) (mem s2) base sizes (4 * total_cells sizes) /\
  (z = true -> all_zero (direct_arrays s) (mem s2) base sizes) /\
  (forall x, x < hp s \/ hp s2 <= x -> x < sp s2 \/ sp s2 + 4 <= x -> mem s2 x = mem s x).
Proof.
  intros L P F S Hn Hsp H64 E. cbv zeta. assert (HI := ok_I s L P F S).
  assert (HB : stp s = mem_size s - 4) by (destruct L; auto).
  assert (Hdec : fits s n \/ ~ fits s n).
  { unfold fits. destruct (pos_dec (pushed_sizes s n)) as [HP|HP]; [|right; intros [H _]; contradiction].
    destruct (n =? 1).
    - destruct (Z_lt_ge_dec (hp s + 4 * total_cells (pushed_sizes s n)) (sp s)); [|right; intros (_ & H & _); lia].
      destruct (heap_scopes s); [left; repeat split; auto; congruence|].
      destruct (Z_le_gt_dec (hp s + 4 * total_cells (pushed_sizes s n) + 64) (sp s)); [left; auto|].
      right. intros (_ & _ & H). specialize (H eq_refl). lia.
    - destruct (Z_lt_ge_dec (hp s + 4 * total_cells (pushed_sizes s n) + 64) (sp s)); [left; auto|right; intros (_ & H); lia]. }
  destruct Hdec as [HF|HF].
  - split; [exact HF|]. destruct (genarray_granted s p a n z L P F S Hn Hsp HF) as (s'' & E2 & Hsp2 & s1 & M & ->).
    rewrite E2 in E. assert (Es : s' = mkIst (set_sp (sp s + 4 * (n - 1)) s1) p a) by congruence. subst s'. clear E E2. cbn [rts]. wsimp.
    destruct M as (M1 & M2 & M3 & M4 & [] & M6 & M7 & M8 & M9). rewrite M6.
    split; [reflexivity|]. split; [reflexivity|]. unfold extra in M1.
    assert (HX : hp s1 <= sp s).
    { destruct HF as [HP HF]. rewrite M1. destruct (n =? 1), (heap_scopes s); try lia.
      }
    assert (0 <= total_cells (pushed_sizes s n)) by (pose proof (total_pos _ (proj1 HF)); lia).
    split; [lia|]. split. { destruct P. constructor; wsimp; try lia. rewrite M1. destruct (heap_scopes s); lia. }
    split; [exact M8|]. split; [exact M9|]. exact M7.
  - exfalso. rewrite exec_genarray in E by assumption.
    destruct (gen_array_refuse s n z HI ltac:(destruct P; lia) Hn H64 ltac:(lia) HF) as (e & s1 & E1 & _).
    rewrite E1 in E. discriminate.
Qed.

Lemma genarray_refused s p a n z : layout s -> pointers_ok s -> is_i32 (frm s) -> is_i32 (hp_scope s) ->
  1 <= n -> sp s + 4 * n <= stp s -> 64 <= sp s -> ~ fits s n ->
  exists e s', exec strict fe nat_ mi (GENARRAY n z) (mkIst s p a) = Fail e (mkIst s' p a) /\
    (1 < n -> s' = s) /\ unchanged_outside s s' (hp s) (sp s + 4 - hp s) /\
    hp s <= hp s' /\ same_plugin s s' /\ sp s' = sp s /\ frm s' = frm s.
Proof.
  intros L P F S Hn Hsp H64 HF. assert (HI := ok_I s L P F S).
  assert (HB : stp s = mem_size s - 4) by (destruct L; auto).
  destruct (gen_array_refuse s n z HI ltac:(destruct P; lia) Hn H64 ltac:(lia) HF) as (e & s1 & E1 & H1 & H2 & H3).
  exists e, s1. split; [|auto]. rewrite exec_genarray by assumption. now rewrite E1.
Qed.
End Genarray.

Definition fe0 : fenv := mkFenv (fun _ x => x) (fun _ x _ => x) (fun x => x) (fun _ x _ => x) (fun _ x => x).
Definition mi0 : meth := mkMeth false [].
Definition run_ops (os : list op) (s : rt) : rt := match perform_all os s with Ok _ s' => s' | _ => s end.

(* Each way of not fitting. *)
Lemma unfit_nonpositive s n : (exists d, In d (pushed_sizes s n) /\ d <= 0) -> ~ fits s n.
Proof. intros (d & Hd & H0) [HP _]. unfold positive in HP. rewrite Forall_forall in HP. specialize (HP d Hd). lia. Qed.
Lemma unfit_big s n : sp s <= hp s + 4 * total_cells (pushed_sizes s n) -> ~ fits s n.
Proof. intros H [_ HF]. destruct (n =? 1); lia. Qed.

(* Witness 1: a refused one-dimensional request has already overwritten its argument. *)
Lemma one_dim_overwrites : exists s p a e s', fresh (demo_rt) /\ s = run_ops [OPush 5000] demo_rt /\ pointers_ok s /\
  exec false fe0 (fun _ => None) mi0 (GENARRAY 1 false) (mkIst s p a) = Fail e s' /\
  load32 (mem (rts s')) (sp s) <> load32 (mem s) (sp s).
Proof.
  set (s := run_ops [OPush 5000] demo_rt).
  set (r := exec false fe0 (fun _ => None) mi0 (GENARRAY 1 false) (mkIst s 0 0)).
  (* Only a number is computed: normalising a state would normalise its memory function. *)
  assert (V : match r with
              | Fail _ s' => load32 (mem (rts s')) (sp s) =? load32 (mem s) (sp s)
              | _ => true end = false) by (vm_compute; reflexivity).
  exists s, 0, 0. destruct r as [|e s'|] eqn:E; [discriminate V| |discriminate V].
  exists e, s'. split; [apply demo_fresh|]. split; [reflexivity|].
  split. { constructor; vm_compute; discriminate. }
  split; [exact E|]. apply Z.eqb_neq. exact V.
Qed.

(* Witness 2: with the stack top below the margin the multi-dimensional check is bypassed. *)
Definition small_rt : rt := make_rt [] 0 true true.
Lemma small_fresh : fresh small_rt.
Proof. repeat split; vm_compute; (reflexivity || discriminate). Qed.
Definition low_stack : list op :=
  [OStack (-16316); OPush 0; OPush 0; OPush 0; OPush 0; OPush 0; OPush 0; OPush 1000; OPush 1000].
Lemma margin_bypassed : exists s s', fresh s /\ perform_all low_stack s = Ok tt s' /\ pointers_ok s' /\
  exec false fe0 (fun _ => None) mi0 (GENARRAY 2 true) (mkIst s' 0 0) = UB UBMem.
Proof.
  exists small_rt, (run_ops low_stack small_rt). split; [apply small_fresh|].
  split. { assert (V : is_ok (perform_all low_stack small_rt) = true) by (vm_compute; reflexivity).
    unfold run_ops. destruct (perform_all low_stack small_rt) as [[] s'| |]; [reflexivity|discriminate V..]. }
  split. { constructor; vm_compute; discriminate. }
  vm_compute. reflexivity.
Qed.

(* A three-dimensional request that fits. *)
Definition req3 : list op := [OPush 2; OPush 3; OPush 4].
Lemma request_example : exists s, fresh demo_rt /\ perform_all req3 demo_rt = Ok tt s /\ pushed_sizes s 3 = [2; 3; 4] /\
  fits s 3 /\ layout s /\ pointers_ok s /\ is_i32 (frm s) /\ is_i32 (hp_scope s) /\ sp s + 4 * 3 <= stp s /\ 64 <= sp s.
Proof.
  exists (run_ops req3 demo_rt). split; [apply demo_fresh|].
  split. { assert (V : is_ok (perform_all req3 demo_rt) = true) by (vm_compute; reflexivity).
    unfold run_ops. destruct (perform_all req3 demo_rt) as [[] s'| |]; [reflexivity|discriminate V..]. }
  assert (V : pushed_sizes (run_ops req3 demo_rt) 3 = [2; 3; 4]) by (vm_compute; reflexivity).
  split; [exact V|].
  split. { unfold fits. rewrite V. split; [repeat constructor; lia|]. vm_compute. reflexivity. }
  split. { constructor; vm_compute; (reflexivity || discriminate). }
  split. { constructor; vm_compute; discriminate. }
  unfold is_i32. repeat split; vm_compute; (reflexivity || discriminate).
Qed.
(* The same machine, asked for more than it has. *)
Definition req_big : list op := [OPush 200; OPush 300].
Lemma refuse_example : exists s, perform_all req_big demo_rt = Ok tt s /\ ~ fits s 2 /\ layout s /\ pointers_ok s /\
  is_i32 (frm s) /\ is_i32 (hp_scope s) /\ sp s + 4 * 2 <= stp s /\ 64 <= sp s.
Proof.
  exists (run_ops req_big demo_rt).
  split. { assert (V : is_ok (perform_all req_big demo_rt) = true) by (vm_compute; reflexivity).
    unfold run_ops. destruct (perform_all req_big demo_rt) as [[] s'| |]; [reflexivity|discriminate V..]. }
  split. { apply unfit_big. vm_compute. discriminate. }
  split. { constructor; vm_compute; (reflexivity || discriminate). }
  split. { constructor; vm_compute; discriminate. }
  unfold is_i32. repeat split; vm_compute; (reflexivity || discriminate).
Qed.
