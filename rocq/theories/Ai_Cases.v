From Verif Require Import Base Base_Proofs Small_Model Small_Spec Ai_Model Ai_Spec Ai_Proofs Ai_Leaf Ai_Reads Ai_Local.
From Verif Require Import Rt_Model Interp_Model Rt_Spec Hist_Proofs Init_Proofs.
From Coq Require Import ZifyBool Lia.
Ltac Zify.zify_post_hook ::= idtac.

(* ---- An enum struct on its own ---- *)
Lemma struct_holds fs i : sized fs -> match i with Some x => valid_struct fs x = true /\ plain_struct fs x | None => True end ->
  exists s, BuildStructInitializer fs i = Some s /\
  forall m a, bytes_in m -> stored m a (cells_of s) -> holds_struct fs i m a.
Proof.
  intros Sz H. unfold BuildStructInitializer. pose proof (struct_cells_nonneg fs Sz) as NN.
  destruct i as [[v|v|str|l ell]|]; try (destruct H; discriminate).
  - destruct H as [V P]. cbn [valid_struct plain_struct] in *. apply andb_true_iff in V as [V _].
    destruct (struct_emit fs (IList l ell) (mkEs [] [] 0) Sz) as (s & L & -> & I1 & F & R); [apply fields_plain; assumption|].
    assert (Len : Z.of_nat (length L) = struct_cells fs) by (unfold struct_row in R; apply blocks_length in R; exact R).
    cbn [flat e_data e_zeroes repeat app] in F. unfold EmitPadding, scaled. rewrite data_size_flat, F.
    replace (length L <? Z.to_nat (1 * struct_cells fs))%nat with false by lia.
    exists s. split; [reflexivity|]. intros m a By St. apply (blocks_hold fs _ L m a Sz By); [|exact R].
    unfold cells_of in St. rewrite I1 in St. cbn [e_iv app] in St. fold (flat s) in St. rewrite F in St. exact St.
  - unfold EmitPadding, scaled, Ai_Model.data_size. cbn [e_data e_zeroes length].
    assert (B : struct_row fs None (repeat 0 (Z.to_nat (struct_cells fs)))) by (apply blocks_nil; exact Sz).
    destruct (0 + 0 <? Z.to_nat (1 * struct_cells fs))%nat eqn:C; eexists; (split; [reflexivity|]); intros m a By St;
      apply (blocks_hold fs _ (repeat 0 (Z.to_nat (struct_cells fs))) m a Sz By); try exact B.
    + unfold cells_of, add_zeroes in St. cbn [e_iv e_data e_zeroes app] in St.
      replace (0 + (Z.to_nat (1 * struct_cells fs) - (0 + 0)))%nat with (Z.to_nat (struct_cells fs)) in St by lia. exact St.
    + replace (Z.to_nat (struct_cells fs)) with O by lia. intros k v N. destruct k; discriminate.
Qed.

(* ---- A data section in memory ---- *)
Definition mem_of (cs : list Z) : memory := fun x => byte_of (x mod 4) (nth (Z.to_nat (x / 4)) cs 0).
Lemma mem_of_bytes cs : bytes_in (mem_of cs).
Proof. intros x. apply byte_of_range. Qed.
Lemma mem_of_load cs k : 0 <= k -> load32 (mem_of cs) (4 * k) = wrap32 (nth (Z.to_nat k) cs 0).
Proof.
  intros H. unfold load32, mem_of.
  assert (D : forall j, 0 <= j < 4 -> (4 * k + j) mod 4 = j /\ (4 * k + j) / 4 = k).
  { intros j Hj. replace (4 * k + j) with (j + k * 4) by lia. rewrite Z_mod_plus_full, Z_div_plus_full by lia.
    rewrite Z.mod_small, Z.div_small by lia. lia. }
  replace (4 * k) with (4 * k + 0) at 1 2 by lia.
  destruct (D 0) as [-> ->]; [lia|]. destruct (D 1) as [-> ->]; [lia|]. destruct (D 2) as [-> ->]; [lia|]. destruct (D 3) as [-> ->]; [lia|].
  rewrite bytes4. change (wrap32 (u32 (nth (Z.to_nat k) cs 0)) = wrap32 (nth (Z.to_nat k) cs 0)). apply wrap32_u32.
Qed.
Lemma mem_of_stored pre cs : stored (mem_of (pre ++ cs)) (4 * Z.of_nat (length pre)) cs.
Proof.
  intros k v N. replace (4 * Z.of_nat (length pre) + 4 * Z.of_nat k) with (4 * Z.of_nat (length pre + k)) by lia.
  rewrite mem_of_load by lia. rewrite Nat2Z.id. f_equal. apply nth_error_nth.
  rewrite nth_error_app2 by lia. replace (length pre + k - length pre)%nat with k by lia. exact N.
Qed.

(* ---- A case with everything: int a[2][4] = {{1, 2}, {5, 7, ...}} after another global ---- *)
Definition demo_init : init := IList [IList [INum 1; INum 2] false; IList [INum 5; INum 7] true] false.
Lemma demo_cells : exists cells m, valid [2; 4] (ECell true) (Some demo_init) = true /\
  EmitGlobalArray [2; 4] (ECell true) (Some demo_init) [99] = Some ([99] ++ cells) /\ stored m 4 cells /\
  4 * Z.of_nat (length ([99] ++ cells)) < two31 /\
  load32 m (row m 4 [1] + 4 * 3) = 11 /\ load32 m (row m 4 [0] + 4 * 3) = 0.
Proof.
  exists [12; 28; 1; 2; 0; 0; 5; 7; 9; 11], (mem_of [99; 12; 28; 1; 2; 0; 0; 5; 7; 9; 11]).
  split; [reflexivity|]. split; [vm_compute; reflexivity|]. split; [apply (mem_of_stored [99])|]. split; [reflexivity|].
  split; vm_compute; reflexivity.
Qed.
Lemma demo_structs : let fs := [FCell; FChars 6; FCells 3] in
  let i := Some (IList [IList [INum 7; IStr [104; 105]; IList [INum 4] true] false; IList [INum 9] false] false) in
  exists cells m, valid [3] (EStruct fs) i = true /\ every_row [] i (plain (EStruct fs) 3) /\
  EmitGlobalArray [3] (EStruct fs) i [] = Some cells /\ stored m 0 cells /\ bytes_in m /\ 4 * Z.of_nat (length cells) < two31 /\
  m (4 * 1 + 1) = 105 /\ load32 m (4 * 5) = 4 /\ load32 m (4 * 6) = 9 /\ load32 m (4 * 12) = 0.
Proof.
  intros fs i. exists [7; 26984; 0; 4; 4; 4; 9; 0; 0; 0; 0; 0; 0; 0; 0; 0; 0; 0], (mem_of [7; 26984; 0; 4; 4; 4; 9; 0; 0; 0; 0; 0; 0; 0; 0; 0; 0; 0]).
  split; [reflexivity|]. split.
  { intros idx W. inversion W; subst. split; [repeat constructor|]. cbn [given i]. split; [reflexivity|]. split; [right; cbn; lia|].
    repeat (apply Forall_cons; [|]); try apply Forall_nil; intros f fl x F L;
      destruct f as [|[|[|f]]]; cbn in F, L; try (destruct f; discriminate); try discriminate; injection F as <-; try injection L as <-; try exact Logic.I; try discriminate.
    unfold plain_field, is_byte. repeat (apply Forall_cons; [lia|]). apply Forall_nil. }
  split; [vm_compute; reflexivity|]. split; [apply (mem_of_stored [])|]. split; [apply mem_of_bytes|]. split; [reflexivity|].
  repeat split; vm_compute; reflexivity.
Qed.
(* int x[n] = v *)
Lemma demo_scalar b n v : 0 < n -> let i := Some (rewrite_scalar [n] (INum v)) in
  valid [n] (ECell b) i = true /\ forall k, 0 <= k < n -> Ai_Spec.cell_at i k = v.
Proof.
  intros Hn i. split.
  - unfold i, valid, rewrite_scalar, valid_rank, valid_list. cbn [forallb is_const andb length existsb removelast]. change (Z.of_nat 1) with 1.
    destruct (1 <? n) eqn:E; cbn [negb orb andb]; lia.
  - intros k Hk. unfold i, Ai_Spec.cell_at, rewrite_scalar. cbn [length]. change (Z.of_nat 1) with 1.
    destruct (k <? 1) eqn:E; [replace k with 0 by lia; reflexivity|]. replace (1 <? n) with true by lia. cbn. lia.
Qed.
(* The local int a[2][20] = {{1}, {2}} on the demo plugin, whose data section holds the template. *)
Definition local_init : init := IList [IList [INum 1] false; IList [INum 2] false] false.
Definition tpl : list Z := [8; 88; 1; 0; 0; 0; 0; 0; 0; 0; 0; 0; 0; 0; 0; 0; 0; 0; 0; 0; 0; 0; 2].
Definition local_rt : rt := mkRt (mem_of tpl) 32768 92 92 32000 32764 32000 (-1) true true.
Lemma demo_local : valid [2; 20] (ECell true) (Some local_init) = true /\
  EmitLocalArray [2; 20] (ECell true) (Some local_init) true [] = Some (tpl, 168, (0, 2, 21, 19)) /\
  layout local_rt /\ pointers_ok local_rt /\ is_i32 (frm local_rt) /\ is_i32 (hp_scope local_rt) /\
  mem_size local_rt mod 4 = 0 /\ data_size local_rt mod 4 = 0 /\ hp local_rt mod 4 = 0 /\
  4 * Z.of_nat (length tpl) <= data_size local_rt /\ stored (mem local_rt) 0 tpl /\ hp local_rt + 168 + 64 <= sp local_rt.
Proof.
  split; [reflexivity|]. split; [vm_compute; reflexivity|].
  split; [constructor; vm_compute; (reflexivity || discriminate)|]. split; [constructor; vm_compute; discriminate|].
  split; [split; vm_compute; (reflexivity || discriminate)|]. split; [split; vm_compute; (reflexivity || discriminate)|].
  do 3 (split; [reflexivity|]). split; [vm_compute; discriminate|]. split; [apply (mem_of_stored [])|]. vm_compute; discriminate.
Qed.

(* ---- What goes wrong ---- *)
(* int64 a[4]; int b[1] = {7};  a[2] is where b is. *)
Lemma int64_short : exists data data' m,
  valid [4] EInt64 None = true /\ EmitGlobalArray [4] EInt64 None [] = Some data /\
  EmitGlobalArray [1] (ECell true) (Some (IList [INum 7] false)) data = Some data' /\ stored m 0 data' /\
  load64 m (8 * 2) = 7.
Proof.
  exists [0; 0; 0; 0], [0; 0; 0; 0; 7], (mem_of [0; 0; 0; 0; 7]). split; [reflexivity|].
  split; [vm_compute; reflexivity|]. split; [vm_compute; reflexivity|]. split; [apply (mem_of_stored [])|].
  vm_compute. reflexivity.
Qed.
(* int64 a[4] = {1, ...} is no array of ones. *)
Lemma int64_ellipsis : exists data m, let i := Some (IList [INum 1] true) in
  valid [4] EInt64 i = true /\ EmitGlobalArray [4] EInt64 i [] = Some data /\ stored m 0 data /\ load64 m (8 * 1) = 1 + two32.
Proof.
  exists [1; 0; 1; 1], (mem_of [1; 0; 1; 1]). split; [reflexivity|].
  split; [vm_compute; reflexivity|]. split; [apply (mem_of_stored [])|]. vm_compute. reflexivity.
Qed.
(* char a[8] = {'h', 'i'}: accepted, but a character takes a whole cell. *)
Lemma char_list : exists data m, let i := Some (IList [INum 104; INum 105] false) in
  valid [8] EChar i = true /\ EmitGlobalArray [8] EChar i [] = Some data /\ stored m 0 data /\ bytes_in m /\ m 1 = 0 /\ m 4 = 105.
Proof.
  exists [104; 105], (mem_of [104; 105]). split; [reflexivity|]. split; [vm_compute; reflexivity|].
  split; [apply (mem_of_stored [])|]. split; [apply mem_of_bytes|]. split; vm_compute; reflexivity.
Qed.
(* enum struct E { char c[8]; int x; }  E e[1] = {{{'h'}, 5}}: x lies elsewhere. *)
Lemma struct_char_list : exists data m, let fs := [FChars 8; FCell] in
  let i := Some (IList [IList [IList [INum 104] false; INum 5] false] false) in
  valid [1] (EStruct fs) i = true /\ EmitGlobalArray [1] (EStruct fs) i [] = Some data /\ stored m 0 data /\
  offset fs 1 = 2 /\ load32 m (4 * 2) = 0.
Proof.
  exists [104; 0; 0; 0; 0; 0; 0; 0; 5], (mem_of [104; 0; 0; 0; 0; 0; 0; 0; 5]). split; [reflexivity|].
  split; [vm_compute; reflexivity|]. split; [apply (mem_of_stored [])|]. split; vm_compute; reflexivity.
Qed.
(* E e[3] = {{1}, ...}, int64 a[4] = {<64-bit literal>, ...}: accepted, but there is no value to go on from. *)
Lemma struct_ellipsis : let fs := [FCell] in let i := Some (IList [IList [INum 1] false] true) in
  valid [3] (EStruct fs) i = true /\ BuildCompoundInitializer [3] (EStruct fs) i 0 = None.
Proof. split; reflexivity. Qed.
Lemma literal_ellipsis : let i := Some (IList [INum64 5000000000] true) in
  valid [4] EInt64 i = true /\ BuildCompoundInitializer [4] EInt64 i 0 = None.
Proof. split; reflexivity. Qed.
(* E e[1] = {{1}, {2}}: more elements than the array has are accepted and take their space. *)
Lemma struct_excess : exists data, let fs := [FCell] in let i := Some (IList [IList [INum 1] false; IList [INum 2] false] false) in
  valid [1] (EStruct fs) i = true /\ EmitGlobalArray [1] (EStruct fs) i [] = Some data /\ length data = 2%nat.
Proof. exists [1; 2]. repeat split; reflexivity. Qed.
(* decl int a[20]: the block is what the heap happens to hold. *)
Lemma decl_dirty : exists heap iv copy fill, EmitLocalArray [20] (ECell true) None false [] = Some ([], heap, (0, iv, copy, fill)) /\
  heap = 80 /\ iv = 0 /\ copy = 0 /\ fill = 0.
Proof. exists 80, 0, 0, 0. repeat split. Qed.
(* Arrays of cells ask nothing more of an initialiser. *)
Lemma global_cells b outer n i data : 0 <= n -> valid (outer ++ [n]) (ECell b) i = true ->
  exists cells, EmitGlobalArray (outer ++ [n]) (ECell b) i data = Some (data ++ cells) /\
  forall m, stored m (4 * Z.of_nat (length data)) cells -> 4 * Z.of_nat (length (data ++ cells)) < two31 ->
  holds_cells outer n i m (4 * Z.of_nat (length data)).
Proof.
  intros Hn V. destruct (global_holds (ECell b) outer n i data Hn V (plain_cells b outer n i)) as (cells & E & H).
  exists cells. split; [exact E|]. intros m S B. exact (H m Logic.I S B).
Qed.
Lemma local_cells b outer n i data : 0 <= n -> valid (outer ++ [n]) (ECell b) i = true ->
  exists template heap iv copy fill,
    EmitLocalArray (outer ++ [n]) (ECell b) i true data = Some (data ++ template, heap, (4 * Z.of_nat (length data), iv, copy, fill)) /\
    forall strict fe natives mi s p a,
    layout s -> pointers_ok s -> is_i32 (frm s) -> is_i32 (hp_scope s) ->
    mem_size s mod 4 = 0 -> data_size s mod 4 = 0 -> hp s mod 4 = 0 ->
    4 * Z.of_nat (length (data ++ template)) <= data_size s -> stored (mem s) (4 * Z.of_nat (length data)) template ->
    0 < heap -> hp s + heap + 64 <= sp s ->
    exists i1 m', exec strict fe natives mi (HEAP heap) (mkIst s p a) = Ok tt i1 /\
      exec strict fe natives mi (INITARRAY Alt (4 * Z.of_nat (length data)) iv copy fill 0) i1 =
        Ok tt (mkIst (set_mem m' (set_hp (hp s + heap) s)) p (hp s)) /\
      holds_cells outer n i m' (hp s) /\
      (forall x, x < hp s \/ hp s + heap <= x -> m' x = mem s x).
Proof.
  intros Hn V. destruct (local_holds (ECell b) outer n i data Hn V (plain_cells b outer n i)) as (t & h & iv & copy & fill & E & H).
  exists t, h, iv, copy, fill. split; [exact E|]. intros strict fe natives mi s p a A1 A2 A3 A4 A5 A6 A7 A8 A9 A10 A11.
  destruct (H strict fe natives mi s p a A1 A2 A3 A4 A5 A6 A7 A8 A9 A10 A11) as (i1 & m' & X1 & X2 & X3 & X4).
  exists i1, m'. split; [exact X1|]. split; [exact X2|]. split; [exact (X3 Logic.I)|exact X4].
Qed.
