From Verif Require Import Base Base_Proofs Small_Model Small_Spec Ai_Model Ai_Spec Ai_Proofs Ai_Leaf Ai_Reads.
From Verif Require Import Rt_Model Array_Model Interp_Model Rt_Spec Rt_Proofs Hist_Proofs Init_Spec Init_Proofs.
From Coq Require Import ZifyBool Lia.
Ltac Zify.zify_post_hook ::= idtac.

(* The template with base 0, moved by the VM to [arr], is the initialiser with base [arr]. *)
Lemma relocate_twice s arr k v : nth_error (e_iv (relocate arr s)) k = Some v ->
  exists v0, nth_error (e_iv (relocate 0 s)) k = Some v0 /\ v = wrap32 (wrap32 v0 + arr).
Proof.
  cbn [relocate e_iv]. rewrite !nth_error_map. destruct (nth_error (e_iv s) k) as [x|]; [|discriminate]. cbn [option_map].
  intros H. injection H as <-. eexists. split; [reflexivity|]. unfold adjust. rewrite !wrap32_add_l. f_equal. lia.
Qed.
Lemma nth_error_split {A} (l1 l2 : list A) k x : nth_error (l1 ++ l2) k = Some x ->
  (k < length l1)%nat /\ nth_error l1 k = Some x \/ (length l1 <= k)%nat /\ nth_error l2 (k - length l1) = Some x.
Proof.
  intros H. destruct (Nat.lt_ge_cases k (length l1)) as [L|L]; [left|right]; split; auto.
  - rewrite nth_error_app1 in H by lia. exact H.
  - rewrite nth_error_app2 in H by lia. exact H.
Qed.
Lemma local_stored dims e i data s : BuildCompoundInitializer dims e i 0 = Some s ->
  exists template heap iv copy fill,
    EmitLocalArray dims e i true data = Some (data ++ template, heap, (4 * Z.of_nat (length data), iv, copy, fill)) /\
    0 <= iv /\ 0 <= copy /\ 0 <= fill /\ heap = 4 * (iv + copy + fill) /\ Z.of_nat (length template) = iv + copy /\
    forall arr, exists s', BuildCompoundInitializer dims e i arr = Some s' /\ heap = 4 * Z.of_nat (length (cells_of s')) /\
    forall m m', stored m (4 * Z.of_nat (length data)) template ->
      materialised m m' arr (4 * Z.of_nat (length data)) iv copy fill 0 -> stored m' arr (cells_of s').
Proof.
  unfold BuildCompoundInitializer, EmitLocalArray, BuildCompoundInitializer. destruct (emit_rank dims e i (mkEs [] [] 0)) as [[a0 s0]|]; [|discriminate].
  intros H. injection H as <-. set (z := e_zeroes (relocate 0 s0)). set (small := (z <? 16)%nat).
  set (zc := if small then 0 else Z.of_nat z).
  assert (Fill : (if negb true && negb (zc =? 0) then 0 else zc) = zc) by reflexivity.
  exists (e_iv (relocate 0 s0) ++ e_data (relocate 0 s0) ++ (if small then repeat 0 z else [])).
  eexists. eexists. eexists. eexists. split; [reflexivity|]. rewrite Fill. clear Fill.
  assert (Z1 : 0 <= zc <= Z.of_nat z) by (unfold zc; destruct small; lia).
  assert (TL : Z.of_nat (length (if small then repeat 0 z else [])) = Z.of_nat z - zc).
  { unfold zc. destruct small; [rewrite repeat_length|cbn [length]]; lia. }
  split; [lia|]. split; [lia|]. split; [lia|]. split; [lia|]. split; [rewrite !app_length; lia|].
  intros arr. exists (relocate arr s0). split; [reflexivity|].
  assert (Liv : length (e_iv (relocate arr s0)) = length (e_iv (relocate 0 s0))) by (cbn [relocate e_iv]; rewrite !map_length; reflexivity).
  split. { unfold cells_of. rewrite !app_length, repeat_length, Liv. cbn [relocate e_data e_zeroes] in *. unfold z. cbn [relocate e_data e_zeroes]. lia. }
  intros m m' St [M1 M2 M3 _] k v N. unfold cells_of in N.
  change (e_data (relocate arr s0)) with (e_data (relocate 0 s0)) in N. change (e_zeroes (relocate arr s0)) with z in N.
  set (IV := e_iv (relocate 0 s0)) in *. set (D := e_data (relocate 0 s0)) in *.
  apply nth_error_split in N as [[K N]|[K N]]; rewrite Liv in *.
  - destruct (relocate_twice s0 arr k v N) as (v0 & N0 & ->). fold IV in N0.
    rewrite M1 by lia. rewrite (St k v0) by (rewrite nth_error_app1 by lia; exact N0).
    rewrite !wrap32_wrap32. reflexivity.
  - set (j := (k - length IV)%nat) in *. assert (Ek : Z.of_nat k = Z.of_nat (length IV) + Z.of_nat j) by lia.
    apply nth_error_split in N as [[J N]|[J N]].
    + rewrite M2 by lia. apply St. rewrite nth_error_app2 by lia. fold j. rewrite nth_error_app1 by lia. exact N.
    + assert (V0 : v = 0). { apply nth_error_In in N. apply repeat_spec in N. exact N. }
      assert (J2 : (j - length D < z)%nat). { assert (X : nth_error (repeat 0 z) (j - length D) <> None) by congruence. apply nth_error_Some in X. rewrite repeat_length in X. exact X. }
      destruct small eqn:Sm; unfold zc in *.
      * rewrite M2 by lia. apply St. rewrite nth_error_app2 by lia. fold j. rewrite nth_error_app2 by lia. exact N.
      * rewrite M3 by lia. subst v. reflexivity.
Qed.

Lemma room_block s n : layout s -> pointers_ok s -> 0 <= n -> hp s + n + 64 <= sp s -> heapAlloc n s = Ok (hp s) (set_hp (hp s + n) s).
Proof.
  intros [] [] H1 H2. unfold heapAlloc, bind, get, put, throw_if, ret, STACK_MARGIN.
  rewrite (wrap32_id (hp s + n)) by (unfold is_i32; lia). replace (n <? 0) with false by lia.
  rewrite (wrap32_id (hp s + n + 64)) by (unfold is_i32; lia). replace (hp s + n + 64 >? sp s) with false by lia. reflexivity.
Qed.
(* The code of a local declaration: HEAP, then INITARRAY.ALT. *)
Lemma local_holds e outer n i data : 0 <= n -> valid (outer ++ [n]) e i = true -> every_row outer i (plain e n) ->
  exists template heap iv copy fill,
    EmitLocalArray (outer ++ [n]) e i true data = Some (data ++ template, heap, (4 * Z.of_nat (length data), iv, copy, fill)) /\
    forall strict fe natives mi s p a,
    layout s -> pointers_ok s -> is_i32 (frm s) -> is_i32 (hp_scope s) ->
    mem_size s mod 4 = 0 -> data_size s mod 4 = 0 -> hp s mod 4 = 0 ->
    4 * Z.of_nat (length (data ++ template)) <= data_size s -> stored (mem s) (4 * Z.of_nat (length data)) template ->
    0 < heap -> hp s + heap + 64 <= sp s ->
    exists i1 m', exec strict fe natives mi (HEAP heap) (mkIst s p a) = Ok tt i1 /\
      exec strict fe natives mi (INITARRAY Alt (4 * Z.of_nat (length data)) iv copy fill 0) i1 =
        Ok tt (mkIst (set_mem m' (set_hp (hp s + heap) s)) p (hp s)) /\
      (bytes_if e m' -> holds e outer n i m' (hp s)) /\
      (forall x, x < hp s \/ hp s + heap <= x -> m' x = mem s x).
Proof.
  intros Hn V P. destruct (array_holds e outer n i 0 Hn V P) as (s0 & E0 & _).
  destruct (local_stored (outer ++ [n]) e i data s0 E0) as (template & heap & iv & copy & fill & E & Hiv & Hcp & Hfl & Hh & Ht & R).
  exists template, heap, iv, copy, fill. split; [exact E|]. intros strict fe natives mi s p a L Po F Sc M4 D4 H4 Dat St Hpos Room.
  exists (mkIst (set_hp (hp s + heap) s) p (hp s)).
  assert (Hd : data_size s <= hp s) by (destruct Po; assumption).
  destruct (script_init strict fe natives mi Alt (4 * Z.of_nat (length data)) iv copy fill 0 (set_hp (hp s + heap) s) p (hp s)) as [Y _]; cbn [set_hp mem_size data_size frm hp_scope].
  { destruct L; constructor; assumption. }
  { destruct Po; constructor; cbn [set_hp data_size hp sp stp]; lia. }
  all: try assumption.
  { apply Z.mod_divide; [lia|]. exists (Z.of_nat (length data)). lia. }
  { destruct L, Po. unfold is_i32. lia. }
  { destruct L. rewrite app_length in Dat. unfold is_i32. lia. }
  { unfold is_i32, two31. lia. }
  destruct Y as (m' & X & Mat).
  { unfold init_fits. cbn [set_hp hp sp mem_size data_size]. rewrite app_length in Dat. destruct L, Po.
    split; [lia|]. split; [|split; [lia|split; [lia|]]].
    - lia.
    - right. lia. }
  exists m'. split.
  { cbn [exec]. unfold bind, lift. cbn [rts]. rewrite (room_block s heap) by (auto; lia). reflexivity. }
  split; [exact X|]. cbn [set_hp mem] in Mat. split.
  - intros By. destruct (R (hp s)) as (s' & E' & Hl & St').
    destruct (array_holds e outer n i (hp s) Hn V P) as (s2 & E2 & H2). rewrite E' in E2. injection E2 as <-.
    apply H2; auto; [apply (St' (mem s)); assumption|destruct L; lia|destruct L, Po; lia].
  - intros x Hx. apply (ma_rest _ _ _ _ _ _ _ _ Mat). lia.
Qed.
