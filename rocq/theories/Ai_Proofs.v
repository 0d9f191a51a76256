From Verif Require Import Base Base_Proofs Small_Model Small_Spec Small_Proofs Ai_Model Ai_Spec.
From Coq Require Import ZifyBool Lia.

Definition flat (s : est) : list Z := e_data s ++ repeat 0 (e_zeroes s).
Lemma data_size_flat s : data_size s = length (flat s).
Proof. unfold data_size, flat. rewrite app_length, repeat_length. reflexivity. Qed.
Lemma flat_add_data v s : flat (add_data v s) = flat s ++ [v] /\ e_iv (add_data v s) = e_iv s.
Proof.
  unfold add_data, flat. destruct (v =? 0) eqn:E; cbn [e_data e_zeroes e_iv].
  - split; [|reflexivity]. apply Z.eqb_eq in E. subst v. rewrite <- app_assoc. f_equal.
    replace (S (e_zeroes s)) with (e_zeroes s + 1)%nat by lia. apply repeat_app.
  - cbn [repeat]. rewrite app_nil_r, <- app_assoc. auto.
Qed.
Lemma flat_add_all vs : forall s, flat (add_all vs s) = flat s ++ vs /\ e_iv (add_all vs s) = e_iv s.
Proof.
  induction vs as [|v vs IH]; intros s; [rewrite app_nil_r; auto|]. unfold add_all. cbn [fold_left]. fold (add_all vs (add_data v s)).
  destruct (IH (add_data v s)) as [-> ->]. destruct (flat_add_data v s) as [-> ->]. rewrite <- app_assoc. auto.
Qed.
Lemma flat_add_zeroes n s : flat (add_zeroes n s) = flat s ++ repeat 0 n /\ e_iv (add_zeroes n s) = e_iv s.
Proof. unfold add_zeroes, flat. cbn [e_data e_zeroes e_iv]. rewrite repeat_app, app_assoc. auto. Qed.

Section Ranks.
Variables (n : Z) (e : elem).
Variables (good : option init -> Prop) (content : option init -> list Z -> Prop).
Hypothesis leaf_emits : forall i s, good i ->
  exists s' L, emit_leaf n e i s = Some (4 * Z.of_nat (length (flat s)) - kDataFlag, s') /\
    e_iv s' = e_iv s /\ flat s' = flat s ++ L /\ content i L.

Definition child (i : option init) (k : nat) : option init := match i with Some (IList l _) => nth_error l k | _ => None end.
Fixpoint shaped (outer : list Z) (i : option init) (lo : nat) (iv fl : list Z) (a : Z) : Prop :=
  match outer with
  | [] => exists p L q, fl = p ++ L ++ q /\ a = 4 * Z.of_nat (length p) - kDataFlag /\ content i L
  | d :: r => exists k, (lo <= k)%nat /\ a = 4 * Z.of_nat k /\
      forall j, (j < Z.to_nat d)%nat -> exists b, nth_error iv (k + j) = Some b /\ shaped r (child i j) lo iv fl b
  end.
Lemma shaped_more outer : forall i lo lo' iv iv' fl fl' a, (lo' <= lo)%nat ->
  (forall p b, (lo <= p)%nat -> nth_error iv p = Some b -> nth_error iv' p = Some b) -> (exists x, fl' = fl ++ x) ->
  shaped outer i lo iv fl a -> shaped outer i lo' iv' fl' a.
Proof.
  induction outer as [|d r IH]; intros i lo lo' iv iv' fl fl' a L K [x ->] H; cbn [shaped] in *.
  - destruct H as (p & L0 & q & -> & -> & C). exists p, L0, (q ++ x). rewrite <- !app_assoc. auto.
  - destruct H as (k & Hk & -> & H). exists k. split; [lia|]. split; [reflexivity|]. intros j Hj.
    destruct (H j Hj) as (b & N & S). exists b. split; [apply K; [lia|exact N]|].
    eapply IH; [exact L|exact K| |exact S]. exists x. reflexivity.
Qed.
Lemma set_at_length k v l : length (set_at k v l) = length l.
Proof. revert k. induction l as [|x l IH]; intros [|k]; cbn [set_at length]; auto. Qed.
Lemma set_at_same k v l : (k < length l)%nat -> nth_error (set_at k v l) k = Some v.
Proof. revert k. induction l as [|x l IH]; intros [|k] H; cbn [set_at length nth_error] in *; try lia; auto. apply IH. lia. Qed.
Lemma set_at_other k v l p : p <> k -> nth_error (set_at k v l) p = nth_error l p.
Proof. revert k p. induction l as [|x l IH]; intros [|k] [|p] H; cbn [set_at nth_error]; auto; try lia. Qed.

Definition good_rows (outer : list Z) (i : option init) : Prop := every_row outer i good.
Definition emits (outer : list Z) : Prop := forall i s, good_rows outer i ->
  exists a s', emit_rank (outer ++ [n]) e i s = Some (a, s') /\ (exists x, flat s' = flat s ++ x) /\
    (length (e_iv s) <= length (e_iv s'))%nat /\
    (forall p b, nth_error (e_iv s) p = Some b -> nth_error (e_iv s') p = Some b) /\
    shaped outer i (length (e_iv s)) (e_iv s') (flat s') a.
Lemma children rest (i : option init) start hi : emits rest -> forall cnt j s,
  (start + j + cnt <= hi)%nat -> (hi <= length (e_iv s))%nat ->
  (forall k, (j <= k < j + cnt)%nat -> good_rows rest (child i k)) ->
  exists s', emit_children (emit_rank (rest ++ [n]) e) (child i) start j cnt s = Some s' /\
    (exists x, flat s' = flat s ++ x) /\ (length (e_iv s) <= length (e_iv s'))%nat /\
    (forall p b, ~ (start + j <= p < start + j + cnt)%nat -> nth_error (e_iv s) p = Some b -> nth_error (e_iv s') p = Some b) /\
    (forall k, (j <= k < j + cnt)%nat -> exists b, nth_error (e_iv s') (start + k) = Some b /\
       shaped rest (child i k) hi (e_iv s') (flat s') b).
Proof.
  intros E. induction cnt as [|cnt IH]; intros j s H1 H2 G; cbn [emit_children].
  - exists s. split; [reflexivity|]. split; [exists []; rewrite app_nil_r; reflexivity|]. split; [lia|]. split; [auto|]. intros k Hk. lia.
  - destruct (E (child i j) s) as (a & s1 & -> & [x1 F1] & L1 & K1 & S1); [apply G; lia|].
    set (s2 := set_iv (start + j) a s1).
    assert (F2 : flat s2 = flat s1) by reflexivity.
    assert (L2 : length (e_iv s2) = length (e_iv s1)) by apply set_at_length.
    destruct (IH (S j) s2) as (s' & -> & [x2 F3] & L3 & K3 & S3); [lia|lia|intros k Hk; apply G; lia|].
    exists s'. split; [reflexivity|]. split; [exists (x1 ++ x2); rewrite F3, F2, F1, app_assoc; reflexivity|].
    split; [lia|]. split.
    + intros p b Hp N. apply K3; [lia|]. unfold s2, set_iv. cbn [e_iv]. rewrite set_at_other by lia. apply K1, N.
    + intros k Hk. destruct (Nat.eq_dec k j) as [->|Hne]; [|apply S3; lia].
      exists a. split.
      * apply K3; [lia|]. unfold s2, set_iv. cbn [e_iv]. apply set_at_same. lia.
      * eapply shaped_more; [exact H2| |exists x2; rewrite F3, F2; reflexivity|exact S1].
        intros p b Hp N. apply K3; [lia|]. unfold s2, set_iv. cbn [e_iv]. rewrite set_at_other by lia. exact N.
Qed.
Lemma every_child d r i (G : good_rows (d :: r) i) k : (k < Z.to_nat d)%nat -> good_rows r (child i k).
Proof.
  intros Hk idx W. specialize (G (Z.of_nat k :: idx)). cbn [given] in G. rewrite Nat2Z.id in G.
  apply G. constructor; [lia|exact W].
Qed.
Lemma rank_step d r i s : emit_rank (d :: r ++ [n]) e i s =
  match emit_children (emit_rank (r ++ [n]) e) (child i) (length (e_iv s)) 0 (Z.to_nat d)
          (mkEs (e_iv s ++ repeat 0 (Z.to_nat d)) (e_data s) (e_zeroes s)) with
  | Some s' => Some (4 * Z.of_nat (length (e_iv s)), s') | None => None end.
Proof. destruct r; reflexivity. Qed.
Lemma emits_all outer : emits outer.
Proof.
  induction outer as [|d r IH]; intros i s G; cbn [app].
  - change (emit_rank [n] e i s) with (emit_leaf n e i s).
    destruct (leaf_emits i s) as (s' & L & -> & I1 & F & C); [apply (G []); constructor|].
    eexists. exists s'. split; [reflexivity|]. split; [exists L; exact F|]. rewrite I1. split; [lia|]. split; [auto|].
    exists (flat s), L, []. rewrite app_nil_r. auto.
  - rewrite rank_step.
    destruct (children r i (length (e_iv s)) (length (e_iv s) + Z.to_nat d) IH (Z.to_nat d) 0
      (mkEs (e_iv s ++ repeat 0 (Z.to_nat d)) (e_data s) (e_zeroes s))) as (s' & -> & [x F] & L & K & S).
    + lia.
    + cbn [e_iv]. rewrite app_length, repeat_length. lia.
    + intros k Hk. eapply every_child; [exact G|lia].
    + cbn [e_iv] in *. rewrite app_length, repeat_length in L.
      eexists. exists s'. split; [reflexivity|]. split; [exists x; exact F|]. split; [lia|]. split.
      * intros p b N. assert (p < length (e_iv s))%nat by (apply nth_error_Some; congruence).
        apply K; [lia|]. rewrite nth_error_app1 by lia. exact N.
      * exists (length (e_iv s)). split; [lia|]. split; [reflexivity|]. intros j Hj.
        destruct (S j ltac:(lia)) as (b & N & Sb). exists b. split; [exact N|].
        eapply shaped_more; [| |exists []; rewrite app_nil_r; reflexivity|exact Sb]; [lia|auto].
Qed.

(* Reading. *)
Lemma shaped_read outer : forall idx i iv fl m base a,
  stored m base (map (adjust (length iv) base) iv ++ fl) -> 0 <= base ->
  base + 4 * Z.of_nat (length iv + length fl) < two31 ->
  within outer idx -> shaped outer i 0 iv fl a -> (0 <= a -> (outer <> [])) ->
  exists p L q, fl = p ++ L ++ q /\ content (given i idx) L /\
    row m (base + (if a <? 0 then a + kDataFlag + 4 * Z.of_nat (length iv) else a)) idx
      = base + 4 * Z.of_nat (length iv + length p).
Proof.
  induction outer as [|d r IH]; intros idx i iv fl m base a St B0 B W H Hn.
  - inversion W; subst. cbn [shaped] in H. destruct H as (p & L & q & -> & -> & C). exists p, L, q.
    split; [reflexivity|]. split; [exact C|]. cbn [row]. rewrite !app_length in B.
    unfold kDataFlag. destruct (4 * Z.of_nat (length p) - two31 <? 0) eqn:E; [lia|unfold two31 in *; lia].
  - inversion W as [|d0 x r0 idx' Hi W']; subst. cbn [shaped] in H. destruct H as (k & _ & -> & H).
    destruct (H (Z.to_nat x)) as (b & N & S); [lia|]. cbn [row given].
    assert (Hk : (k + Z.to_nat x < length iv)%nat) by (apply nth_error_Some; congruence).
    replace (4 * Z.of_nat k <? 0) with false by lia.
    replace (base + 4 * Z.of_nat k + 4 * x) with (base + 4 * Z.of_nat (k + Z.to_nat x)) by lia.
    rewrite (St _ (adjust (length iv) base b)) by (rewrite nth_error_app1 by (rewrite map_length; lia); rewrite nth_error_map, N; reflexivity).
    assert (Hb : adjust (length iv) base b = base + (if b <? 0 then b + kDataFlag + 4 * Z.of_nat (length iv) else b) /\
      0 <= base + (if b <? 0 then b + kDataFlag + 4 * Z.of_nat (length iv) else b) < two31).
    { assert (R : 0 <= base + (if b <? 0 then b + kDataFlag + 4 * Z.of_nat (length iv) else b) < two31).
      { destruct r as [|d' r']; cbn [shaped] in S.
        - destruct S as (p & L & q & -> & -> & _). rewrite !app_length in B. unfold kDataFlag, two31 in *.
          destruct (4 * Z.of_nat (length p) - 2147483648 <? 0) eqn:E; lia.
        - destruct S as (k' & _ & -> & S). replace (4 * Z.of_nat k' <? 0) with false by lia.
          inversion W' as [|? y ? ? Hy _]; subst. destruct (S (Z.to_nat y)) as (b' & N' & _); [lia|].
          assert (k' + Z.to_nat y < length iv)%nat by (apply nth_error_Some; congruence). lia. }
      split; [|exact R]. unfold adjust. apply wrap32_id. unfold is_i32. lia. }
    destruct Hb as [Hb1 Hb2]. rewrite Hb1. rewrite wrap32_id by (unfold is_i32; lia).
    apply IH; auto.
    intros Hpos ->. cbn [shaped] in S. destruct S as (p & L & q & -> & -> & _).
    rewrite !app_length in B. unfold kDataFlag, two31 in *. lia.
Qed.

Lemma built outer i base : good_rows outer i -> exists s, BuildCompoundInitializer (outer ++ [n]) e i base = Some s /\
  forall m idx, stored m base (cells_of s) -> 0 <= base -> base + 4 * Z.of_nat (length (cells_of s)) < two31 -> within outer idx ->
  exists p L q, cells_of s = p ++ L ++ q /\ content (given i idx) L /\ row m base idx = base + 4 * Z.of_nat (length p).
Proof.
  intros G. unfold BuildCompoundInitializer. destruct (emits_all outer i (mkEs [] [] 0) G) as (a & s & E & _ & _ & _ & S).
  rewrite E. eexists. split; [reflexivity|]. intros m idx St B0 B W.
  assert (C : cells_of (relocate base s) = map (adjust (length (e_iv s)) base) (e_iv s) ++ flat s) by reflexivity.
  rewrite C in *. cbn [e_iv length] in S. rewrite app_length, map_length in B.
  assert (A : base + (if a <? 0 then a + kDataFlag + 4 * Z.of_nat (length (e_iv s)) else a) = base + match outer with [] => 4 * Z.of_nat (length (e_iv s)) | _ => 0 end /\ (0 <= a -> outer <> [])).
  { destruct outer as [|d r]; cbn [app] in E.
    - change (emit_leaf n e i (mkEs [] [] 0) = Some (a, s)) in E.
      destruct (leaf_emits i (mkEs [] [] 0)) as (s1 & L & E1 & _); [apply (G []); constructor|].
      rewrite E1 in E. injection E as <- <-. cbn [flat e_data e_zeroes repeat app length]. unfold kDataFlag, two31. cbn. split; [lia|]. intros; exfalso; lia.
    - rewrite rank_step in E. destruct (emit_children _ _ _ _ _ _) as [s1|]; [|discriminate]. injection E as <- <-.
      cbn [e_iv length]. cbn. split; [lia|discriminate]. }
  destruct A as [A1 A2].
  destruct (shaped_read outer idx i (e_iv s) (flat s) m base a St B0) as (p & L & q & F & Co & R); auto.
  exists (map (adjust (length (e_iv s)) base) (e_iv s) ++ p), L, q. split; [rewrite F, app_assoc; reflexivity|].
  split; [exact Co|]. rewrite app_length, map_length.
  destruct outer as [|d r].
  - inversion W; subst. cbn [row] in *. rewrite A1 in R.
    assert (e_iv s = []).
    { destruct (leaf_emits i (mkEs [] [] 0)) as (s1 & L1 & E1 & I1 & _); [apply (G []); constructor|].
      cbn [app] in E. change (emit_leaf n e i (mkEs [] [] 0) = Some (a, s)) in E. rewrite E1 in E. injection E as _ <-. exact I1. }
    rewrite H in *. cbn [length] in *. lia.
  - rewrite A1, Z.add_0_r in R. exact R.
Qed.
End Ranks.
