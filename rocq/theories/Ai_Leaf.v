(* The rows: what each kind of initialiser puts in them. *)
From Verif Require Import Base Base_Proofs Small_Model Small_Spec Small_Proofs Ai_Model Ai_Spec Ai_Proofs.
From Coq Require Import ZifyBool Lia.

Lemma wrap32_shift a b k : a = b + k * two32 -> wrap32 a = wrap32 b.
Proof. intros ->. apply wrap32_eq_mod. replace (b + k * two32 - b) with (k * two32) by lia. apply Z_mod_mult. Qed.
Lemma wrap32_add_l a b : wrap32 (wrap32 a + b) = wrap32 (a + b).
Proof. destruct (wrap32_mod a) as [k ->]. apply (wrap32_shift _ _ k). lia. Qed.
Lemma wrap32_lin a b c : wrap32 (a + b * wrap32 c) = wrap32 (a + b * c).
Proof. destruct (wrap32_mod c) as [k ->]. apply (wrap32_shift _ _ (b * k)). lia. Qed.
Definition num1 (i : init) : Z := number (Some i).
Lemma consts_app e l : forall x p1 p2 s,
  emit_consts e (l ++ x) p1 p2 s =
  match emit_consts e l p1 p2 s with Some (s', q1, q2) => emit_consts e x q1 q2 s' | None => None end.
Proof. induction l as [|i l IH]; intros x p1 p2 s; [reflexivity|]. destruct i; cbn [app emit_consts]; auto. Qed.
Lemma add_all_app a b s : add_all (a ++ b) s = add_all b (add_all a s).
Proof. unfold add_all. apply fold_left_app. Qed.

Definition prev_of (l : list init) (back : nat) : option Z :=
  if (back <=? length l)%nat then Some (number (nth_error l (length l - back))) else None.
Lemma consts_cells e l : (match e with EInt64 => False | _ => True end) -> forallb is_num l = true -> forall s,
  emit_consts e l None None s = Some (add_all (map num1 l) s, prev_of l 1, prev_of l 2).
Proof.
  intros He. induction l as [|i l IH] using rev_ind; intros N s; [reflexivity|].
  rewrite forallb_app in N. apply andb_true_iff in N as [N1 N2]. rewrite consts_app, (IH N1).
  destruct i; cbn [forallb is_num andb] in N2; try discriminate. cbn [emit_consts].
  assert (A : prev_of (l ++ [INum v]) 1 = Some v).
  { unfold prev_of. rewrite app_length. cbn [length]. replace (1 <=? length l + 1)%nat with true by lia.
    rewrite nth_error_app2 by lia. replace (length l + 1 - 1 - length l)%nat with 0%nat by lia. reflexivity. }
  assert (B : prev_of (l ++ [INum v]) 2 = prev_of l 1).
  { unfold prev_of. rewrite app_length. cbn [length]. replace (2 <=? length l + 1)%nat with (1 <=? length l)%nat by lia.
    destruct (1 <=? length l)%nat eqn:E; [|reflexivity]. rewrite nth_error_app1 by lia.
    replace (length l + 1 - 2)%nat with (length l - 1)%nat by lia. reflexivity. }
  rewrite A, B, map_app, add_all_app. destruct e; try contradiction; reflexivity.
Qed.
Lemma steps_nth cnt : forall next st j, (j < cnt)%nat ->
  exists v, nth_error (steps cnt next st) j = Some v /\ wrap32 v = wrap32 (next + Z.of_nat j * st).
Proof.
  induction cnt as [|cnt IH]; intros next st j H; [lia|]. destruct j as [|j]; cbn [steps nth_error].
  - exists next. split; [reflexivity|]. f_equal. lia.
  - destruct (IH (wrap32 (next + st)) st j) as (v & N & E); [lia|]. exists v. split; [exact N|]. rewrite E.
    rewrite wrap32_add_l. f_equal. lia.
Qed.
Lemma steps_length cnt : forall next st, length (steps cnt next st) = cnt.
Proof. induction cnt as [|cnt IH]; intros next st; cbn [steps length]; auto. Qed.

(* A list of constants in a row of [n] cells. *)
Lemma list_row n l ell s : 0 <= n -> forallb is_num l = true -> (n = 0 \/ Z.of_nat (length l) <= n) ->
  (ell = true -> l <> []) ->
  exists s' L, EmitPadding n Plain (length l) ell (prev_of l 1) (prev_of l 2) (add_all (map num1 l) s) = Some s' /\
    flat s' = flat s ++ L /\ e_iv s' = e_iv s /\ (n <> 0 -> length L = Z.to_nat n) /\
    forall k, reaches n (Some (IList l ell)) k -> exists v, nth_error L (Z.to_nat k) = Some v /\ wrap32 v = wrap32 (cell_at (Some (IList l ell)) k).
Proof.
  intros Hn N Hl He. destruct (flat_add_all (map num1 l) s) as [F0 I0].
  assert (Low : forall L k, 0 <= k < Z.of_nat (length l) ->
    exists v, nth_error (map num1 l ++ L) (Z.to_nat k) = Some v /\ wrap32 v = wrap32 (cell_at (Some (IList l ell)) k)).
  { intros L k Hk. rewrite nth_error_app1 by (rewrite map_length; lia). rewrite nth_error_map.
    destruct (nth_error l (Z.to_nat k)) as [i|] eqn:E; [|apply nth_error_None in E; lia]. cbn [option_map].
    eexists. split; [reflexivity|]. unfold cell_at. replace (k <? Z.of_nat (length l)) with true by lia. rewrite E. reflexivity. }
  unfold EmitPadding, scaled. destruct (length l <? Z.to_nat n)%nat eqn:C.
  - destruct ell.
    + assert (L1 : (1 <= length l)%nat) by (specialize (He eq_refl); destruct l; [congruence|cbn [length]; lia]).
      unfold prev_of at 1. replace (1 <=? length l)%nat with true by lia.
      set (p1 := number (nth_error l (length l - 1))).
      set (st := match prev_of l 2 with Some p2 => wrap32 (p1 - p2) | None => 0 end).
      set (ss := steps (Z.to_nat n - length l) (wrap32 (p1 + st)) st).
      destruct (flat_add_all ss (add_all (map num1 l) s)) as [F1 I1].
      eexists. exists (map num1 l ++ ss). split; [reflexivity|]. rewrite F1, F0, I1, I0, <- app_assoc.
      split; [reflexivity|]. split; [reflexivity|]. split.
      { intros _. rewrite app_length, map_length. unfold ss. rewrite steps_length. lia. }
      intros k [K0 K]. destruct (Z_lt_ge_dec k (Z.of_nat (length l))) as [Hk|Hk]; [apply Low; lia|].
      assert (Kn : k < n) by lia.
      destruct (steps_nth (Z.to_nat n - length l) (wrap32 (p1 + st)) st (Z.to_nat k - length l)) as (v & Nv & E); [lia|].
      exists v. split.
      { rewrite nth_error_app2 by (rewrite map_length; lia). rewrite map_length. exact Nv. }
      rewrite E, wrap32_add_l. unfold cell_at. replace (k <? Z.of_nat (length l)) with false by lia.
      replace (Z.to_nat (Z.of_nat (length l) - 1)) with (length l - 1)%nat by lia. fold p1.
      unfold st, prev_of. destruct (2 <=? length l)%nat eqn:T.
      * replace (2 <=? Z.of_nat (length l)) with true by lia.
        replace (Z.to_nat (Z.of_nat (length l) - 2)) with (length l - 2)%nat by lia.
        set (p2 := number (nth_error l (length l - 2))).
        replace (Z.of_nat (Z.to_nat k - length l)) with (k - Z.of_nat (length l)) by lia.
        replace (p1 + wrap32 (p1 - p2) + (k - Z.of_nat (length l)) * wrap32 (p1 - p2))
          with (p1 + (k - Z.of_nat (length l) + 1) * wrap32 (p1 - p2)) by lia.
        apply wrap32_lin.
      * replace (2 <=? Z.of_nat (length l)) with false by lia. f_equal. lia.
    + destruct (flat_add_zeroes (Z.to_nat n - length l) (add_all (map num1 l) s)) as [F1 I1].
      eexists. exists (map num1 l ++ repeat 0 (Z.to_nat n - length l)). split; [reflexivity|].
      rewrite F1, F0, I1, I0, <- app_assoc. split; [reflexivity|]. split; [reflexivity|]. split.
      { intros _. rewrite app_length, map_length, repeat_length. lia. }
      intros k [K0 K]. destruct (Z_lt_ge_dec k (Z.of_nat (length l))) as [Hk|Hk]; [apply Low; lia|].
      assert (Kn : k < n) by lia. exists 0. split.
      { rewrite nth_error_app2 by (rewrite map_length; lia). rewrite map_length. apply nth_error_repeat. lia. }
      unfold cell_at. replace (k <? Z.of_nat (length l)) with false by lia. reflexivity.
  - eexists. exists (map num1 l ++ []). split; [reflexivity|]. rewrite F0, I0, !app_nil_r. split; [reflexivity|].
    split; [reflexivity|]. split; [intros; rewrite map_length; lia|].
    intros k [K0 K]. rewrite <- (app_nil_r (map num1 l)). apply Low. lia.
Qed.

(* ---- Cells ---- *)
Definition good_cells (b : bool) (n : Z) (i : option init) : Prop :=
  0 <= n /\ match i with None => 0 < n | Some (IList l ell) => valid_list (ECell b) n l ell = true | _ => False end.
Definition cells_row (n : Z) (i : option init) (L : list Z) : Prop :=
  forall k, reaches n i k -> exists v, nth_error L (Z.to_nat k) = Some v /\ wrap32 v = wrap32 (cell_at i k).
Lemma valid_list_cells e n l ell : (match e with EInt64 => False | _ => True end) -> valid_list e n l ell = true ->
  forallb is_num l = true /\ (n = 0 \/ Z.of_nat (length l) <= n) /\ (ell = true -> l <> []).
Proof.
  intros He H. unfold valid_list in H. apply andb_true_iff in H as [H H3]. apply andb_true_iff in H as [H1 H2].
  split; [|split].
  - rewrite forallb_forall in *. intros x Hx. specialize (H1 x Hx). destruct x; cbn [is_const is_num] in *; auto.
    destruct e; auto; contradiction.
  - lia.
  - intros ->. cbn [negb orb] in H3. intros ->. cbn [length] in H3. discriminate.
Qed.
Lemma leaf_cells b n i s : good_cells b n i ->
  exists s' L, emit_leaf n (ECell b) i s = Some (4 * Z.of_nat (length (flat s)) - kDataFlag, s') /\
    e_iv s' = e_iv s /\ flat s' = flat s ++ L /\ cells_row n i L.
Proof.
  intros [Hn G]. unfold emit_leaf. rewrite data_size_flat. destruct i as [[v|v|str|l ell]|]; try contradiction.
  - destruct (valid_list_cells (ECell b) n l ell Logic.I G) as (N & Hl & He).
    rewrite (consts_cells (ECell b) l Logic.I N s). cbn [scale_of].
    destruct (flat_add_all (map num1 l) s) as [F0 I0]. rewrite data_size_flat, F0, app_length, map_length.
    replace (length (flat s) + length l - length (flat s))%nat with (length l) by lia.
    destruct (list_row n l ell s Hn N Hl He) as (s' & L & -> & F & I1 & _ & C).
    exists s', L. auto.
  - cbn [scale_of]. unfold EmitPadding, scaled. rewrite data_size_flat, Nat.sub_diag.
    replace (0 <? Z.to_nat n)%nat with true by lia. rewrite Nat.sub_0_r.
    destruct (flat_add_zeroes (Z.to_nat n) s) as [F I1].
    eexists. exists (repeat 0 (Z.to_nat n)). split; [reflexivity|]. split; [exact I1|]. split; [exact F|].
    intros k [K0 K]. exists 0. split; [apply nth_error_repeat; lia|reflexivity].
Qed.

(* ---- Characters ---- *)
Lemma byte_of_wrap32 j v : 0 <= j <= 3 -> byte_of j (wrap32 v) = byte_of j v.
Proof.
  intros Hj. destruct (wrap32_mod v) as [k E]. rewrite E. unfold byte_of.
  assert (J : j = 0 \/ j = 1 \/ j = 2 \/ j = 3) by lia. unfold two32.
  destruct J as [-> | [-> | [-> | ->]]]; cbn [Z.mul Pos.mul].
  - replace (v + k * 4294967296) with (v + (k * 16777216) * 256) by lia. change (2 ^ 0) with 1. rewrite !Z.div_1_r. apply Z_mod_plus_full.
  - replace (v + k * 4294967296) with (v + (k * 16777216) * 2 ^ 8) by lia. rewrite Z_div_plus_full by lia.
    replace (k * 16777216) with (k * 65536 * 256) by lia. apply Z_mod_plus_full.
  - replace (v + k * 4294967296) with (v + (k * 65536) * 2 ^ 16) by lia. rewrite Z_div_plus_full by lia.
    replace (k * 65536) with (k * 256 * 256) by lia. apply Z_mod_plus_full.
  - replace (v + k * 4294967296) with (v + (k * 256) * 2 ^ 24) by lia. rewrite Z_div_plus_full by lia.
    apply Z_mod_plus_full.
Qed.
Lemma cell_bytes_wrap32 v : cell_bytes (wrap32 v) = cell_bytes v.
Proof. unfold cell_bytes. rewrite !byte_of_wrap32 by lia. reflexivity. Qed.
Lemma bytes_wrap32 cs : bytes_of_cells (map wrap32 cs) = bytes_of_cells cs.
Proof. unfold bytes_of_cells. induction cs as [|c cs IH]; [reflexivity|]. cbn [map flat_map]. rewrite IH, cell_bytes_wrap32. reflexivity. Qed.
Lemma bytes_app a b : bytes_of_cells (a ++ b) = bytes_of_cells a ++ bytes_of_cells b.
Proof. apply flat_map_app. Qed.
Lemma bytes_zero k : bytes_of_cells (repeat 0 k) = repeat 0 (4 * k).
Proof.
  induction k as [|k IH]; [reflexivity|]. cbn [repeat]. unfold bytes_of_cells in *. cbn [flat_map]. rewrite IH.
  replace (4 * S k)%nat with (4 + 4 * k)%nat by lia. reflexivity.
Qed.
Lemma bytes_length cs : length (bytes_of_cells cs) = (4 * length cs)%nat.
Proof. induction cs as [|c cs IH]; [reflexivity|]. unfold bytes_of_cells in *. cbn [flat_map]. rewrite app_length, IH. cbn [length cell_bytes]. lia. Qed.

Definition good_chars (n : Z) (i : option init) : Prop :=
  0 <= n /\ match i with None => 0 < n | Some (IStr s) => Forall is_byte s /\ (n = 0 \/ Z.of_nat (length s) + 1 <= n) | _ => False end.
Definition chars_row (n : Z) (i : option init) (L : list Z) : Prop :=
  forall k, reaches n i k -> nth_error (bytes_of_cells L) (Z.to_nat k) = Some (char_at i k).
Ltac Zify.zify_post_hook ::= Z.div_mod_to_equations.
Lemma char_cells_ge n : 0 <= n -> n <= 4 * char_array_cells n < n + 4.
Proof. unfold char_array_cells. lia. Qed.
Lemma char_cells_mono a b : a <= b -> char_array_cells a <= char_array_cells b.
Proof. unfold char_array_cells. lia. Qed.
Ltac Zify.zify_post_hook ::= idtac.
Lemma string_row n str s : 0 <= n -> Forall is_byte str -> (n = 0 \/ Z.of_nat (length str) + 1 <= n) ->
  exists s' L, EmitPadding n Chars (data_size (add_string str s) - data_size s) false None None (add_string str s) = Some s' /\
    flat s' = flat s ++ L /\ e_iv s' = e_iv s /\ (n <> 0 -> length L = Z.to_nat (char_array_cells n)) /\
    chars_row n (Some (IStr str)) L.
Proof.
  intros Hn B Hl. destruct (string_cells str B) as (k & Hk & Bs & Len).
  set (cs := map wrap32 (StringToCells str)). destruct (flat_add_all cs s) as [F0 I0].
  assert (Lc : Z.of_nat (length cs) = char_array_cells (Z.of_nat (length str) + 1)) by (unfold cs; rewrite map_length; exact Len).
  assert (Bc : bytes_of_cells cs = str ++ repeat 0 k) by (unfold cs; rewrite bytes_wrap32; exact Bs).
  assert (R : forall z j, 0 <= j -> j < Z.of_nat (length str + k) + 4 * Z.of_nat z ->
     nth_error (bytes_of_cells (cs ++ repeat 0 z)) (Z.to_nat j) = Some (char_at (Some (IStr str)) j)).
  { intros z j J0 J. rewrite bytes_app, Bc, bytes_zero, <- app_assoc, <- repeat_app. unfold char_at.
    destruct (Z_lt_ge_dec j (Z.of_nat (length str))) as [Lt|Ge].
    - rewrite nth_error_app1 by lia. apply nth_error_nth'. lia.
    - rewrite nth_error_app2 by lia. rewrite nth_overflow by lia. apply nth_error_repeat. lia. }
  pose proof (bytes_length cs) as BL. rewrite Bc, app_length, repeat_length in BL.
  unfold add_string. fold cs. rewrite !data_size_flat, F0, app_length. replace (length (flat s) + length cs - length (flat s))%nat with (length cs) by lia.
  pose proof (char_cells_ge n Hn) as Cn.
  unfold EmitPadding, scaled. destruct (length cs <? Z.to_nat (char_array_cells n))%nat eqn:C.
  - destruct (flat_add_zeroes (Z.to_nat (char_array_cells n) - length cs) (add_all cs s)) as [F1 I1].
    eexists. exists (cs ++ repeat 0 (Z.to_nat (char_array_cells n) - length cs)). split; [reflexivity|].
    rewrite F1, F0, I1, I0, <- app_assoc. split; [reflexivity|]. split; [reflexivity|]. split.
    { intros _. rewrite app_length, repeat_length. lia. }
    intros j [J0 J]. apply R; [exact J0|]. lia.
  - eexists. exists cs. split; [reflexivity|]. split; [exact F0|]. split; [exact I0|]. split.
    { intros Nz. destruct Hl as [Hl|Hl]; [contradiction|]. pose proof (char_cells_mono _ _ Hl). lia. }
    intros j [J0 J]. rewrite <- (app_nil_r cs). apply (R 0%nat); lia.
Qed.
Lemma leaf_chars n i s : good_chars n i ->
  exists s' L, emit_leaf n EChar i s = Some (4 * Z.of_nat (length (flat s)) - kDataFlag, s') /\
    e_iv s' = e_iv s /\ flat s' = flat s ++ L /\ chars_row n i L.
Proof.
  intros [Hn G]. unfold emit_leaf. destruct i as [[v|v|str|l ell]|]; try contradiction.
  - destruct G as [B Hl]. cbn [scale_of]. destruct (string_row n str s Hn B Hl) as (s' & L & -> & F & I1 & _ & C).
    exists s', L. rewrite data_size_flat. auto.
  - cbn [scale_of]. unfold EmitPadding, scaled. rewrite Nat.sub_diag. pose proof (char_cells_ge n Hn) as Cn.
    replace (0 <? Z.to_nat (char_array_cells n))%nat with true by lia. rewrite Nat.sub_0_r, data_size_flat.
    destruct (flat_add_zeroes (Z.to_nat (char_array_cells n)) s) as [F I1].
    eexists. exists (repeat 0 (Z.to_nat (char_array_cells n))). split; [reflexivity|]. split; [exact I1|]. split; [exact F|].
    intros k [K0 K]. rewrite bytes_zero. apply nth_error_repeat. lia.
Qed.

(* ---- 64-bit integers, every one of which is given ---- *)
Definition good_i64 (n : Z) (i : option init) : Prop :=
  match i with Some (IList l ell) => forallb (is_const EInt64) l = true /\ (n = 0 \/ n = Z.of_nat (length l)) | _ => False end.
Definition i64_row (i : option init) (L : list Z) : Prop :=
  match i with Some (IList l ell) => L = flat_map (fun x => halves (num1 x)) l | _ => False end.
Lemma consts_i64 l : forall p1 p2 s, forallb (is_const EInt64) l = true ->
  exists q1 q2, emit_consts EInt64 l p1 p2 s = Some (add_all (flat_map (fun x => halves (num1 x)) l) s, q1, q2).
Proof.
  induction l as [|i l IH]; intros p1 p2 s H; [eexists; eexists; reflexivity|].
  cbn [forallb] in H. apply andb_true_iff in H as [H1 H2].
  destruct i; cbn [is_const] in H1; try discriminate; cbn [emit_consts flat_map].
  - destruct (IH (Some v) p1 (add_all (halves v) s) H2) as (q1 & q2 & ->). exists q1, q2. rewrite add_all_app. reflexivity.
  - destruct (IH p1 p2 (add_all (halves v) s) H2) as (q1 & q2 & ->). exists q1, q2. rewrite add_all_app. reflexivity.
Qed.
Lemma halves_length l : length (flat_map (fun x => halves (num1 x)) l) = (2 * length l)%nat.
Proof. induction l as [|i l IH]; [reflexivity|]. cbn [flat_map]. rewrite app_length, IH. cbn [length halves]. lia. Qed.
Lemma leaf_i64 n i s : good_i64 n i ->
  exists s' L, emit_leaf n EInt64 i s = Some (4 * Z.of_nat (length (flat s)) - kDataFlag, s') /\
    e_iv s' = e_iv s /\ flat s' = flat s ++ L /\ i64_row i L.
Proof.
  intros G. unfold emit_leaf. destruct i as [[v|v|str|l ell]|]; try contradiction. destruct G as [N Hn].
  destruct (consts_i64 l None None s N) as (q1 & q2 & ->). cbn [scale_of]. rewrite !data_size_flat.
  set (cs := flat_map _ l). destruct (flat_add_all cs s) as [F0 I0]. rewrite F0, app_length.
  pose proof (halves_length l) as HL. fold cs in HL.
  unfold EmitPadding, scaled. replace (length (flat s) + length cs - length (flat s) <? Z.to_nat n)%nat with false by lia.
  eexists. exists cs. split; [reflexivity|]. split; [exact I0|]. split; [exact F0|]. reflexivity.
Qed.

(* ---- Enum structs ---- *)
(* A field's initialiser, character arrays being written as strings. *)
Definition field_ok (f : field) (i : init) : Prop :=
  match f, i with
  | FCell, INum _ => True
  | FCells n, IList l ell => valid_list (ECell true) n l ell = true
  | FChars n, IStr s => Forall is_byte s /\ Z.of_nat (length s) + 1 <= n
  | _, _ => False
  end.
Fixpoint fields_ok (fs : list field) (l : list init) : Prop :=
  match l, fs with [], _ => True | _ :: _, [] => False | i :: l', f :: fs' => field_ok f i /\ fields_ok fs' l' end.
Definition struct_ok (fs : list field) (i : init) : Prop := match i with IList l ell => fields_ok fs l | _ => False end.
Definition field_block (f : field) (i : option init) (L : list Z) : Prop :=
  Z.of_nat (length L) = field_cells f /\
  match f with
  | FCell => exists v, nth_error L 0 = Some v /\ wrap32 v = wrap32 (number i)
  | FCells n => cells_row n i L
  | FChars n => chars_row n i L
  end.
Lemma field_cells_pos f fs : sized (f :: fs) -> 0 < field_cells f.
Proof.
  intros H. inversion H; subst. destruct f; cbn [field_cells]; try lia. pose proof (char_cells_ge n). lia.
Qed.
Lemma struct_cells_nonneg fs : sized fs -> 0 <= struct_cells fs.
Proof.
  induction fs as [|f fs IH]; intros H; [cbn; lia|]. change (struct_cells (f :: fs)) with (field_cells f + struct_cells fs).
  pose proof (field_cells_pos f fs H). inversion H; subst. specialize (IH H4). lia.
Qed.
Lemma zero_block f fs : sized (f :: fs) -> field_block f None (repeat 0 (Z.to_nat (field_cells f))).
Proof.
  intros H. pose proof (field_cells_pos f fs H) as P. split; [rewrite repeat_length; lia|].
  inversion H as [|? ? S _]; subst. destruct f; cbn [field_cells] in *.
  - exists 0. split; reflexivity.
  - intros k [K0 K]. exists 0. split; [apply nth_error_repeat; destruct K as [K|[_ []]]; lia|reflexivity].
  - intros k [K0 K]. rewrite bytes_zero. pose proof (char_cells_ge n). apply nth_error_repeat. destruct K as [K|[_ []]]; lia.
Qed.
(* The cells of a struct. *)
Inductive blocks : list field -> list init -> list Z -> Prop :=
| blocks_nil fs : sized fs -> blocks fs [] (repeat 0 (Z.to_nat (struct_cells fs)))
| blocks_cons f fs i l B L : field_block f (Some i) B -> blocks fs l L -> blocks (f :: fs) (i :: l) (B ++ L).
Lemma blocks_length fs l L : blocks fs l L -> Z.of_nat (length L) = struct_cells fs.
Proof.
  induction 1 as [fs S|f fs i l B L [Len _] H IH].
  - rewrite repeat_length. pose proof (struct_cells_nonneg fs S). lia.
  - rewrite app_length. change (struct_cells (f :: fs)) with (field_cells f + struct_cells fs). lia.
Qed.
Lemma blocks_field fs l L : blocks fs l L -> forall f fl, nth_error fs f = Some fl ->
  exists p B q, L = p ++ B ++ q /\ Z.of_nat (length p) = offset fs f /\ field_block fl (nth_error l f) B.
Proof.
  induction 1 as [fs S|g fs i l B L [Len Bl] H IH]; intros f fl N.
  - revert fs S N. induction f as [|f IHf]; intros [|g fs] S N; try discriminate; cbn [nth_error] in N.
    + injection N as ->. exists [], (repeat 0 (Z.to_nat (field_cells fl))), (repeat 0 (Z.to_nat (struct_cells fs))).
      split; [|split; [reflexivity|apply (zero_block fl fs S)]]. cbn [app]. rewrite <- repeat_app. f_equal.
      change (struct_cells (fl :: fs)) with (field_cells fl + struct_cells fs).
      pose proof (field_cells_pos _ _ S). inversion S; subst. pose proof (struct_cells_nonneg fs ltac:(assumption)). lia.
    + pose proof (field_cells_pos _ _ S) as P. inversion S; subst. destruct (IHf fs ltac:(assumption) N) as (p & B & q & E & Lp & Fb).
      pose proof (struct_cells_nonneg fs ltac:(assumption)).
      exists (repeat 0 (Z.to_nat (field_cells g)) ++ p), B, q. split; [|split; [|destruct f; exact Fb]].
      * rewrite <- app_assoc, <- E, <- repeat_app. f_equal. change (struct_cells (g :: fs)) with (field_cells g + struct_cells fs). lia.
      * rewrite app_length, repeat_length. unfold offset in *. cbn [firstn]. change (struct_cells (g :: firstn f fs)) with (field_cells g + struct_cells (firstn f fs)). lia.
  - destruct f as [|f]; cbn [nth_error] in *.
    + injection N as ->. exists [], B, L. split; [reflexivity|]. split; [reflexivity|]. split; assumption.
    + destruct (IH f fl N) as (p & B' & q & -> & Lp & Fb). exists (B ++ p), B', q. split; [rewrite <- app_assoc; reflexivity|].
      split; [|exact Fb]. rewrite app_length. unfold offset in *. cbn [firstn].
      change (struct_cells (g :: firstn f fs)) with (field_cells g + struct_cells (firstn f fs)). lia.
Qed.
Lemma fields_emit fs : forall l s, sized fs -> fields_ok fs l ->
  exists s' L, emit_fields fs l s = Some s' /\ e_iv s' = e_iv s /\ flat s' = flat s ++ L /\
    (length L <= Z.to_nat (struct_cells fs))%nat /\ blocks fs l (L ++ repeat 0 (Z.to_nat (struct_cells fs) - length L)).
Proof.
  induction fs as [|f fs IH]; intros [|i l] s S G; try contradiction.
  - exists s, []. split; [reflexivity|]. split; [reflexivity|]. rewrite app_nil_r. split; [reflexivity|]. split; [cbn; lia|]. exact (blocks_nil [] S).
  - exists s, []. cbn [emit_fields]. split; [reflexivity|]. split; [reflexivity|]. rewrite app_nil_r. split; [reflexivity|].
    split; [cbn [length]; lia|]. cbn [app length]. rewrite Nat.sub_0_r. apply blocks_nil, S.
  - destruct G as [G1 G2]. pose proof (field_cells_pos _ _ S) as P. inversion S as [|? ? S1 S2]; subst.
    pose proof (struct_cells_nonneg fs S2) as NN.
    assert (One : exists s1 B, e_iv s1 = e_iv s /\ flat s1 = flat s ++ B /\ field_block f (Some i) B /\
      emit_fields (f :: fs) (i :: l) s = emit_fields fs l s1).
    { destruct f as [|n|n], i as [v|v|str|il ell]; try contradiction; cbn [field_ok] in G1.
      - destruct (flat_add_data v s) as [F I0]. exists (add_data v s), [v]. split; [exact I0|]. split; [exact F|].
        split; [|reflexivity]. split; [reflexivity|]. exists v. split; reflexivity.
      - destruct (valid_list_cells (ECell true) n il ell Logic.I G1) as (N & Hl & He).
        destruct (list_row n il ell s ltac:(lia) N Hl He) as (s1 & B & E & F & I1 & Len & C).
        exists s1, B. split; [exact I1|]. split; [exact F|]. split; [split; [rewrite Len by lia; cbn [field_cells]; lia|exact C]|].
        cbn [emit_fields]. rewrite N, (consts_cells (ECell true) il Logic.I N s), E. reflexivity.
      - destruct G1 as [B0 Hl]. destruct (string_row n str s ltac:(lia) B0 ltac:(auto)) as (s1 & B & E & F & I1 & Len & C).
        exists s1, B. split; [exact I1|]. split; [exact F|]. split; [split; [rewrite Len by lia; cbn [field_cells] in *; lia|exact C]|].
        cbn [emit_fields]. rewrite E. reflexivity. }
    destruct One as (s1 & B & I1 & F1 & FB & ->).
    destruct (IH l s1 S2 G2) as (s' & L & -> & I2 & F2 & Le & Bl). destruct FB as [LB FB].
    exists s', (B ++ L). split; [reflexivity|]. rewrite I2, I1. split; [reflexivity|]. rewrite F2, F1, <- app_assoc. split; [reflexivity|].
    change (struct_cells (f :: fs)) with (field_cells f + struct_cells fs). rewrite !app_length. split; [lia|].
    rewrite <- app_assoc. apply blocks_cons; [split; assumption|].
    replace (Z.to_nat (field_cells f + struct_cells fs) - (length B + length L))%nat with (Z.to_nat (struct_cells fs) - length L)%nat by lia.
    exact Bl.
Qed.
Definition struct_row (fs : list field) (i : option init) (L : list Z) : Prop :=
  blocks fs (match i with Some (IList l _) => l | _ => [] end) L.
Lemma struct_emit fs i s : sized fs -> struct_ok fs i ->
  exists s' L, emit_struct fs i s = Some s' /\ e_iv s' = e_iv s /\ flat s' = flat s ++ L /\ struct_row fs (Some i) L.
Proof.
  intros S G. destruct i as [v|v|str|l ell]; try contradiction. cbn [struct_ok emit_struct] in *.
  destruct (fields_emit fs l s S G) as (s1 & L & -> & I1 & F1 & Le & B). rewrite !data_size_flat, F1, app_length.
  replace (length (flat s) + length L - length (flat s))%nat with (length L) by lia.
  destruct (flat_add_zeroes (Z.to_nat (struct_cells fs) - length L) s1) as [F2 I2].
  eexists. eexists. split; [reflexivity|]. rewrite I2, I1. split; [reflexivity|]. rewrite F2, F1, <- app_assoc. split; [reflexivity|exact B].
Qed.
(* Rows of structs. *)
Inductive structs (fs : list field) : list init -> list Z -> Prop :=
| structs_nil : structs fs [] []
| structs_cons i l B L : struct_row fs (Some i) B -> structs fs l L -> structs fs (i :: l) (B ++ L).
Lemma structs_emit fs l : forall s, sized fs -> Forall (struct_ok fs) l ->
  exists s' L, emit_structs fs l s = Some s' /\ e_iv s' = e_iv s /\ flat s' = flat s ++ L /\ structs fs l L.
Proof.
  induction l as [|i l IH]; intros s S G; cbn [emit_structs].
  - exists s, []. rewrite app_nil_r. repeat (split; [reflexivity|]). constructor.
  - inversion G as [|? ? G1 G2]; subst. destruct (struct_emit fs i s S G1) as (s1 & B & -> & I1 & F1 & R1).
    destruct (IH s1 S G2) as (s' & L & -> & I2 & F2 & R2). exists s', (B ++ L). split; [reflexivity|].
    rewrite I2, I1. split; [reflexivity|]. rewrite F2, F1, <- app_assoc. split; [reflexivity|]. constructor; assumption.
Qed.
Lemma structs_length fs l L : structs fs l L -> Z.of_nat (length L) = Z.of_nat (length l) * struct_cells fs.
Proof.
  induction 1 as [|i l B L H1 H2 IH]; [reflexivity|]. rewrite app_length. unfold struct_row in H1. apply blocks_length in H1.
  cbn [length]. nia.
Qed.
Lemma structs_at fs l L : structs fs l L -> forall k i, nth_error l k = Some i ->
  exists p E q, L = p ++ E ++ q /\ Z.of_nat (length p) = Z.of_nat k * struct_cells fs /\ struct_row fs (Some i) E.
Proof.
  induction 1 as [|i l B L H1 H2 IH]; intros k j N; [destruct k; discriminate|].
  destruct k as [|k]; cbn [nth_error] in N.
  - injection N as <-. exists [], B, L. split; [reflexivity|]. split; [reflexivity|exact H1].
  - destruct (IH k j N) as (p & E & q & -> & Lp & R). exists (B ++ p), E, q. split; [rewrite <- app_assoc; reflexivity|].
    split; [|exact R]. rewrite app_length. unfold struct_row in H1. apply blocks_length in H1. nia.
Qed.
Definition good_structs (fs : list field) (n : Z) (i : option init) : Prop :=
  0 <= n /\ sized fs /\ match i with
    | None => 0 < n
    | Some (IList l ell) => ell = false /\ Forall (struct_ok fs) l /\ (n = 0 \/ Z.of_nat (length l) <= n)
    | _ => False
    end.
Definition structs_row (fs : list field) (n : Z) (i : option init) (L : list Z) : Prop :=
  forall k, reaches n i k -> exists p E q, L = p ++ E ++ q /\ Z.of_nat (length p) = k * struct_cells fs /\
    struct_row fs (element i k) E.
Lemma leaf_structs fs n i s : good_structs fs n i ->
  exists s' L, emit_leaf n (EStruct fs) i s = Some (4 * Z.of_nat (length (flat s)) - kDataFlag, s') /\
    e_iv s' = e_iv s /\ flat s' = flat s ++ L /\ structs_row fs n i L.
Proof.
  intros (Hn & S & G). unfold emit_leaf. pose proof (struct_cells_nonneg fs S) as NN. rewrite data_size_flat.
  assert (Zer : forall a k, a <= k < n -> 0 <= a -> exists p E q,
    repeat 0 (Z.to_nat (n * struct_cells fs) - Z.to_nat (a * struct_cells fs)) = p ++ E ++ q /\
    Z.of_nat (length p) = (k - a) * struct_cells fs /\ struct_row fs None E).
  { intros a k Hk Ha. exists (repeat 0 (Z.to_nat ((k - a) * struct_cells fs))), (repeat 0 (Z.to_nat (struct_cells fs))),
      (repeat 0 (Z.to_nat ((n - k - 1) * struct_cells fs))).
    split; [|split].
    - rewrite <- !repeat_app. f_equal. nia.
    - rewrite repeat_length. nia.
    - apply blocks_nil, S. }
  destruct i as [[v|v|str|l ell]|]; try contradiction.
  - destruct G as (-> & G & Hl). destruct (structs_emit fs l s S G) as (s1 & L & -> & I1 & F1 & R).
    cbn [scale_of]. rewrite data_size_flat, F1, app_length. replace (length (flat s) + length L - length (flat s))%nat with (length L) by lia.
    pose proof (structs_length fs l L R) as Len.
    assert (Low : forall tail k, 0 <= k < Z.of_nat (length l) -> exists p E q, L ++ tail = p ++ E ++ q /\
      Z.of_nat (length p) = k * struct_cells fs /\ struct_row fs (element (Some (IList l false)) k) E).
    { intros tail k Hk. destruct (nth_error l (Z.to_nat k)) as [j|] eqn:Ej; [|apply nth_error_None in Ej; lia].
      destruct (structs_at fs l L R (Z.to_nat k) j Ej) as (p & E & q & -> & Lp & Re).
      exists p, E, (q ++ tail). rewrite <- !app_assoc. split; [reflexivity|]. split; [nia|].
      cbn [element]. rewrite Ej. exact Re. }
    unfold EmitPadding, scaled. destruct (length L <? Z.to_nat (n * struct_cells fs))%nat eqn:C.
    + destruct (flat_add_zeroes (Z.to_nat (n * struct_cells fs) - length L) s1) as [F2 I2].
      eexists. exists (L ++ repeat 0 (Z.to_nat (n * struct_cells fs) - length L)). split; [reflexivity|].
      rewrite I2, I1. split; [reflexivity|]. rewrite F2, F1, <- app_assoc. split; [reflexivity|].
      intros k [K0 K]. destruct (Z_lt_ge_dec k (Z.of_nat (length l))) as [Lt|Ge]; [apply Low; lia|].
      assert (Kn : k < n) by lia.
      destruct (Zer (Z.of_nat (length l)) k) as (p & E & q & Eq & Lp & Re); [lia|lia|].
      replace (Z.to_nat (Z.of_nat (length l) * struct_cells fs)) with (length L) in Eq by nia.
      exists (L ++ p), E, q. rewrite Eq, <- app_assoc. split; [reflexivity|]. split; [rewrite app_length; nia|].
      cbn [element]. assert (X : nth_error l (Z.to_nat k) = None) by (apply nth_error_None; lia). rewrite X. exact Re.
    + eexists. exists L. split; [reflexivity|]. split; [exact I1|]. split; [exact F1|].
      intros k [K0 K]. destruct (Z_lt_ge_dec k (Z.of_nat (length l))) as [Lt|Ge].
      { destruct (Low [] k) as (p & E & q & Eq & X); [lia|]. rewrite app_nil_r in Eq. exists p, E, q. auto. }
      assert (Kn : k < n) by lia. assert (Z0 : struct_cells fs = 0) by nia.
      exists L, [], []. rewrite app_nil_r. split; [reflexivity|]. split; [nia|].
      cbn [element]. assert (X : nth_error l (Z.to_nat k) = None) by (apply nth_error_None; lia). rewrite X.
      pose proof (blocks_nil fs S) as B. rewrite Z0 in B. exact B.
  - cbn [scale_of]. unfold EmitPadding, scaled. rewrite data_size_flat, Nat.sub_diag.
    destruct (0 <? Z.to_nat (n * struct_cells fs))%nat eqn:C.
    + rewrite Nat.sub_0_r. destruct (flat_add_zeroes (Z.to_nat (n * struct_cells fs)) s) as [F2 I2].
      eexists. eexists. split; [reflexivity|]. split; [exact I2|]. split; [exact F2|].
      intros k [K0 K]. destruct K as [K|[_ []]]. destruct (Zer 0 k) as (p & E & q & Eq & Lp & Re); [lia|lia|].
      rewrite Z.mul_0_l, Nat.sub_0_r in Eq. exists p, E, q. split; [exact Eq|]. split; [lia|exact Re].
    + eexists. exists []. rewrite app_nil_r. split; [reflexivity|]. split; [reflexivity|]. split; [reflexivity|].
      intros k [K0 K]. destruct K as [K|[_ []]]. assert (Z0 : struct_cells fs = 0) by nia.
      exists [], [], []. split; [reflexivity|]. split; [rewrite Z0; cbn [length]; lia|].
      pose proof (blocks_nil fs S) as B. rewrite Z0 in B. exact B.
Qed.
