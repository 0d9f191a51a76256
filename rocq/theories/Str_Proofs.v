From Verif Require Import Base Base_Proofs Rt_Model Str_Model Str_Spec.
From Coq Require Import ZifyBool.
Ltac Zify.zify_post_hook ::= Z.div_mod_to_equations.

(* ---- Writing the text ---- *)
Lemma wr8_end m a text x : fill_bytes (write_bytes m a text) (a + Z.of_nat (length text)) 1 (0 mod 256) x =
  if (a <=? x) && (x <? a + Z.of_nat (length text) + 1) then nth (Z.to_nat (x - a)) (text ++ [0]) 0 else m x.
Proof.
  unfold fill_bytes. change (0 mod 256) with 0. destruct ((a + Z.of_nat (length text) <=? x) && (x <? a + Z.of_nat (length text) + 1)) eqn:E.
  - replace ((a <=? x) && (x <? a + Z.of_nat (length text) + 1)) with true by lia.
    rewrite app_nth2 by lia. replace (Z.to_nat (x - a) - length text)%nat with 0%nat by lia. reflexivity.
  - destruct ((a <=? x) && (x <? a + Z.of_nat (length text) + 1)) eqn:F.
    + replace x with (a + (x - a)) at 1 by lia. rewrite write_bytes_in by lia. rewrite app_nth1 by lia. reflexivity.
    + apply write_bytes_out. lia.
Qed.
Lemma copy_in_ok a data s : 0 <= a -> a + Z.of_nat (length data) <= mem_size s ->
  copy_in a data s = Ok tt (set_mem (write_bytes (mem s) a data) s).
Proof.
  intros A L. unfold copy_in. destruct data as [|b r].
  - cbn. destruct s. reflexivity.
  - cbn [length]. replace (Z.of_nat (S (length r)) =? 0) with false by lia. unfold in_mem. cbn [length] in L.
    replace ((0 <=? a) && (a + Z.of_nat (S (length r)) <=? mem_size s)) with true by lia. reflexivity.
Qed.
Lemma host_ok s a : plugin_address s a -> bad_host_address s a = false.
Proof. intros [A G]. unfold bad_host_address. lia. Qed.
Lemma host_bad s a : ~ plugin_address s a -> bad_host_address s a = true.
Proof. intros G. unfold bad_host_address, plugin_address in *. lia. Qed.

Lemma copy_ok s a n src : plugin_address s a -> 0 <= n -> a + Z.min n (Z.of_nat (length src) + 1) <= mem_size s ->
  exists s', StringToLocal a n src s = Ok tt s' /\
    if n =? 0 then s' = s else copied s s' a (firstn (Z.to_nat (n - 1)) src).
Proof.
  intros PA N FIT. unfold StringToLocal. rewrite (host_ok _ _ PA). destruct (Z.eqb_spec n 0) as [->|NZ]; [eauto|].
  set (len := Z.of_nat (length src)) in *. set (l := if len >=? n then n - 1 else len).
  assert (LB : 0 <= l /\ l < n /\ l <= len) by (unfold l; destruct (Z.geb_spec len n); lia).
  assert (FN : firstn (Z.to_nat l) src = firstn (Z.to_nat (n - 1)) src).
  { unfold l. destruct (Z.geb_spec len n) as [G|G]; [reflexivity|]. rewrite !firstn_all2 by lia. reflexivity. }
  assert (LT : Z.of_nat (length (firstn (Z.to_nat l) src)) = l) by (rewrite firstn_length; lia).
  destruct PA as [PA _]. unfold bind. rewrite copy_in_ok by lia. unfold wr8, in_mem, set_mem. cbn [mem_size mem].
  replace ((0 <=? a + l) && (a + l + 1 <=? mem_size s)) with true by lia. eexists. split; [reflexivity|].
  rewrite <- FN. split; [destruct s; reflexivity|]. intros x. cbn [mem].
  pose proof (wr8_end (mem s) a (firstn (Z.to_nat l) src) x) as W. rewrite LT in *. exact W.
Qed.
Lemma copy_refused s a n src : ~ plugin_address s a -> StringToLocal a n src s = Fail INVALID_ADDRESS s /\
  StringToLocalUTF8 a n src s = Fail INVALID_ADDRESS s /\ LocalToString a s = Fail INVALID_ADDRESS s.
Proof.
  intros B. unfold StringToLocal, StringToLocalUTF8, LocalToString, LocalToPhysAddr. rewrite (host_bad _ _ B). auto.
Qed.

(* ---- Bytes of characters ---- *)
Definition byte_kind (b : Z) : bool :=
  Bool.eqb (Z.land b 0xC0 =? 0x80) ((0x80 <=? b) && (b <? 0xC0)) &&
  Bool.eqb ((Z.land b 0xF0 =? 0xC0) || (Z.land b 0xF0 =? 0xD0)) ((0xC0 <=? b) && (b <? 0xE0)) &&
  Bool.eqb (Z.land b 0xF0 =? 0xE0) ((0xE0 <=? b) && (b <? 0xF0)) &&
  Bool.eqb (Z.land b 0xF0 =? 0xF0) (0xF0 <=? b) &&
  Bool.eqb (Z.land b 0x80 =? 0) (b <? 0x80).
Lemma byte_kinds b : 0 <= b < 256 -> byte_kind b = true.
Proof.
  intros B. assert (F : forallb byte_kind (map Z.of_nat (seq 0 256)) = true) by (vm_compute; reflexivity).
  rewrite forallb_forall in F. apply F. apply in_map_iff. exists (Z.to_nat b). split; [lia|]. apply in_seq. lia.
Qed.
Lemma byte_tests b : 0 <= b < 256 ->
  (Z.land b 0xC0 =? 0x80) = ((0x80 <=? b) && (b <? 0xC0)) /\
  ((Z.land b 0xF0 =? 0xC0) || (Z.land b 0xF0 =? 0xD0)) = ((0xC0 <=? b) && (b <? 0xE0)) /\
  (Z.land b 0xF0 =? 0xE0) = ((0xE0 <=? b) && (b <? 0xF0)) /\
  (Z.land b 0xF0 =? 0xF0) = (0xF0 <=? b) /\
  (Z.land b 0x80 =? 0) = (b <? 0x80).
Proof.
  intros B. pose proof (byte_kinds b B) as K. unfold byte_kind in K. rewrite !andb_true_iff, !Bool.eqb_true_iff in K. tauto.
Qed.

(* A run of continuing bytes is walked back to the byte that starts the character. *)
Lemma walk_back s : forall r p count fuel l, 0 <= p -> p + Z.of_nat r < mem_size s -> (r <= fuel)%nat ->
  mem s p = l -> 0xC0 <= l < 0xF8 -> (forall i, (1 <= i <= r)%nat -> continues (mem s (p + Z.of_nat i))) ->
  CheckValidChar fuel (p + Z.of_nat r) count s =
    Ok (if negb ((if l <? 0xE0 then 2 else if l <? 0xF0 then 3 else 4) =? count + Z.of_nat r) then count + Z.of_nat r else 0) s.
Proof.
  induction r as [|r IH]; intros p count fuel l P LE FU ML LR C.
  - change (Z.of_nat 0) with 0 in *. rewrite !Z.add_0_r. destruct (byte_tests l ltac:(lia)) as (T1 & T2 & T3 & T4 & _).
    assert (R : rd8 p s = Ok l s). { unfold rd8, in_mem. replace ((0 <=? p) && (p + 1 <=? mem_size s)) with true by lia. now rewrite ML. }
    assert (BC : (if (Z.land l 0xF0 =? 0xC0) || (Z.land l 0xF0 =? 0xD0) then 2 else if Z.land l 0xF0 =? 0xE0 then 3 else if Z.land l 0xF0 =? 0xF0 then 4 else 0)
                 = if l <? 0xE0 then 2 else if l <? 0xF0 then 3 else 4).
    { rewrite T2, T3, T4. destruct (Z.ltb_spec l 0xE0), (Z.ltb_spec l 0xF0), (Z.leb_spec 0xC0 l), (Z.leb_spec 0xE0 l), (Z.leb_spec 0xF0 l); cbn [andb]; lia. }
    destruct fuel; cbn [CheckValidChar]; rewrite R, T1, BC; replace ((128 <=? l) && (l <? 192)) with false by lia; reflexivity.
  - destruct fuel as [|f]; [lia|]. cbn [CheckValidChar].
    assert (R : rd8 (p + Z.of_nat (S r)) s = Ok (mem s (p + Z.of_nat (S r))) s).
    { unfold rd8, in_mem. replace ((0 <=? p + Z.of_nat (S r)) && (p + Z.of_nat (S r) + 1 <=? mem_size s)) with true by lia. reflexivity. }
    rewrite R. pose proof (C (S r) ltac:(lia)) as CB. unfold continues in CB.
    destruct (byte_tests (mem s (p + Z.of_nat (S r))) ltac:(lia)) as (T1 & _). rewrite T1.
    replace ((128 <=? mem s (p + Z.of_nat (S r))) && (mem s (p + Z.of_nat (S r)) <? 192)) with true by lia.
    replace (p + Z.of_nat (S r) - 1) with (p + Z.of_nat r) by lia.
    rewrite (IH p (count + 1) f l) by (auto; try lia; intros i I; apply C; lia).
    replace (count + 1 + Z.of_nat r) with (count + Z.of_nat (S r)) by lia. reflexivity.
Qed.
Definition char_len (l : Z) : Z := if l <? 0xE0 then 2 else if l <? 0xF0 then 3 else 4.
Lemma char_shape c : utf8_char c -> (exists b, c = [b] /\ 0 < b < 0x80) \/
  (exists l r, c = l :: r /\ 0xC0 <= l < 0xF8 /\ Forall continues r /\ Z.of_nat (length c) = char_len l /\ (2 <= length c <= 4)%nat).
Proof.
  intros U. unfold char_len. destruct U as [b B|l b L B|l b c L B C|l b c d L B C D]; [left; eauto| | |]; right.
  - exists l, [b]. replace (l <? 0xE0) with true by lia. cbn [length]. repeat split; auto; lia.
  - exists l, [b; c]. replace (l <? 0xE0) with false by lia. replace (l <? 0xF0) with true by lia. cbn [length]. repeat split; auto; lia.
  - exists l, [b; c; d]. replace (l <? 0xE0) with false by lia. replace (l <? 0xF0) with false by lia. cbn [length]. repeat split; auto; lia.
Qed.
(* The last character in memory, possibly cut after [r] bytes. *)
Lemma check_cut s p c r fuel : utf8_char c -> (2 <= length c)%nat -> (1 <= r <= length c)%nat -> 0 <= p -> p + Z.of_nat r <= mem_size s -> (r <= fuel)%nat ->
  (forall i, (i < r)%nat -> mem s (p + Z.of_nat i) = nth i c 0) ->
  CheckValidChar fuel (p + Z.of_nat r - 1) 1 s = Ok (if (r =? length c)%nat then 0 else Z.of_nat r) s /\ 0x80 <= mem s (p + Z.of_nat r - 1) < 256.
Proof.
  intros U L2 R P FIT FU M. destruct (char_shape c U) as [(b & -> & _) | (l & rest & -> & LR & CT & LEN & LL)]; [cbn in L2; lia|].
  assert (CN : forall i, (1 <= i < r)%nat -> continues (mem s (p + Z.of_nat i))).
  { intros i I. rewrite M by lia. destruct i as [|i]; [lia|]. cbn [nth]. rewrite Forall_forall in CT. apply CT, nth_In. cbn [length] in *. lia. }
  assert (M0 : mem s p = l) by (specialize (M 0%nat); cbn in M; rewrite Z.add_0_r in M; apply M; lia).
  split.
  - replace (p + Z.of_nat r - 1) with (p + Z.of_nat (r - 1)) by lia.
    rewrite (walk_back s (r - 1) p 1 fuel l) by (auto; try lia; intros i I; apply CN; lia).
    replace (1 + Z.of_nat (r - 1)) with (Z.of_nat r) by lia. fold (char_len l). rewrite <- LEN. f_equal.
    destruct (Nat.eqb_spec r (length (l :: rest))) as [E|E]; destruct (Z.eqb_spec (Z.of_nat (length (l :: rest))) (Z.of_nat r)) as [E'|E']; cbn [negb]; lia.
  - destruct (Nat.eq_dec r 1) as [->|D].
    + replace (p + Z.of_nat 1 - 1) with p by lia. lia.
    + replace (p + Z.of_nat r - 1) with (p + Z.of_nat (r - 1)) by lia. specialize (CN (r - 1)%nat ltac:(lia)). unfold continues in CN. lia.
Qed.

(* Where a cut falls in a text. *)
Lemma cut_point (chars : list (list Z)) L : Forall (fun c => (1 <= length c)%nat) chars -> (L < length (concat chars))%nat ->
  exists k c r, (k < length chars)%nat /\ nth_error chars k = Some c /\ (r < length c)%nat /\ L = (length (concat (firstn k chars)) + r)%nat /\
    firstn L (concat chars) = concat (firstn k chars) ++ firstn r c /\ concat (firstn (S k) chars) = concat (firstn k chars) ++ c.
Proof.
  intros F. revert L. induction F as [|c chars LC F IH]; intros L LT; [cbn in LT; lia|]. cbn [concat] in LT. rewrite app_length in LT.
  destruct (Nat.lt_ge_cases L (length c)) as [A|A].
  - exists 0%nat, c, L. cbn [length firstn concat nth_error]. repeat split; auto; try lia.
    rewrite firstn_app. replace (L - length c)%nat with 0%nat by lia. cbn [firstn]. rewrite app_nil_r. reflexivity. now rewrite app_nil_r.
  - destruct (IH (L - length c)%nat ltac:(lia)) as (k & c' & r & K & N & R & EL & FN & FS). exists (S k), c', r.
    cbn [length nth_error]. split; [lia|]. split; [exact N|]. split; [exact R|].
    change (firstn (S k) (c :: chars)) with (c :: firstn k chars). cbn [concat]. rewrite app_length. split; [lia|]. split.
    + rewrite firstn_app, (firstn_all2 c) by lia. rewrite FN. now rewrite app_assoc.
    + change (firstn (S (S k)) (c :: chars)) with (c :: firstn (S k) chars). cbn [concat]. rewrite FS. now rewrite app_assoc.
Qed.

Lemma concat_firstn_len k (chars : list (list Z)) : (length (concat (firstn k chars)) <= length (concat chars))%nat.
Proof. rewrite <- (firstn_skipn k chars) at 2. rewrite concat_app, app_length. lia. Qed.

Lemma rd8_ok a s : 0 <= a < mem_size s -> rd8 a s = Ok (mem s a) s.
Proof. intros A. unfold rd8, in_mem. replace ((0 <=? a) && (a + 1 <=? mem_size s)) with true by lia. reflexivity. Qed.
Lemma wrote_at m a data i : (i < length data)%nat -> write_bytes m a data (a + Z.of_nat i) = nth i data 0.
Proof. intros I. rewrite write_bytes_in by lia. now rewrite Nat2Z.id. Qed.
Lemma wr8_ok a s : 0 <= a < mem_size s -> wr8 a 0 s = Ok tt (set_mem (fill_bytes (mem s) a 1 (0 mod 256)) s).
Proof. intros A. unfold wr8, in_mem. replace ((0 <=? a) && (a + 1 <=? mem_size s)) with true by lia. reflexivity. Qed.
Lemma write_bytes_app m a x y : write_bytes m a (x ++ y) = write_bytes (write_bytes m a x) (a + Z.of_nat (length x)) y.
Proof.
  revert m a. induction x as [|b x IH]; intros m a; cbn [app write_bytes length]; [now rewrite Z.add_0_r|].
  rewrite IH. f_equal. lia.
Qed.

Lemma utf8_nonempty chars : utf8_text chars -> Forall (fun c => (1 <= length c)%nat) chars.
Proof. intros F. eapply Forall_impl; [|exact F]. intros c U. destruct U; cbn; lia. Qed.

Lemma utf8_ok s a n chars : let src := concat chars in
  plugin_address s a -> utf8_text chars -> 2 <= n -> n < two63 -> mem_size s < two31 ->
  a + Z.min n (Z.of_nat (length src) + 1) <= mem_size s -> (src = [] -> 0 < a) ->
  exists s' text, StringToLocalUTF8 a n src s = Ok (Some (Z.of_nat (length text))) s' /\
    longest_fit chars (n - 1) text /\ copied_within s s' a text (Z.min n (Z.of_nat (length src) + 1)).
Proof.
  intros src PA UT N NB MS FIT NE. unfold StringToLocalUTF8. rewrite (host_ok _ _ PA).
  replace (n =? 0) with false by lia. set (len := Z.of_nat (length src)) in *. destruct PA as [PA _].
  destruct (Z.geb_spec len n) as [G|G].
  - (* cut *)
    assert (LT : (Z.to_nat (n - 1) < length src)%nat) by lia.
    destruct (cut_point chars (Z.to_nat (n - 1)) (utf8_nonempty _ UT) LT) as (k & c & r & K & NC & R & EL & FN & FS).
    fold src in FN. set (t1 := concat (firstn k chars)) in *.
    assert (UC : utf8_char c) by (unfold utf8_text in UT; rewrite Forall_forall in UT; apply UT; eapply nth_error_In, NC).
    rewrite FN. set (m1 := write_bytes (mem s) a (t1 ++ firstn r c)).
    assert (LD : Z.of_nat (length (t1 ++ firstn r c)) = n - 1) by (rewrite app_length, firstn_length; lia).
    set (s1 := set_mem m1 s). assert (MS1 : mem_size s1 = mem_size s) by reflexivity. assert (MM1 : mem s1 = m1) by reflexivity.
    unfold bind at 1. rewrite copy_in_ok by lia. fold m1. fold s1.
    unfold bind at 1. rewrite (rd8_ok (a + (n - 1 - 1))) by (rewrite MS1; lia). rewrite MM1.
    (* the length after looking at the last byte *)
    assert (CHK : (if negb (Z.land (m1 (a + (n - 1 - 1))) 0x80 =? 0) && true
              then r0 <- CheckValidChar (Z.to_nat (a + (n - 1))) (a + (n - 1) - 1) 1;; ret (u64 (n - 1 - r0)) else ret (n - 1)) s1
            = Ok (Z.of_nat (length t1)) s1).
    { rewrite andb_true_r. destruct r as [|r].
      - (* the cut falls between characters *)
        destruct k as [|k]; [cbn in t1; unfold t1 in EL; cbn in EL; lia|].
        destruct (nth_error chars k) as [c'|] eqn:NK; [|apply nth_error_None in NK; lia].
        assert (TS : t1 = concat (firstn k chars) ++ c').
        { unfold t1. assert (E : firstn (S k) chars = firstn k chars ++ [c']).
          { clear - NK. revert k NK. induction chars as [|x l IH]; intros [|k] NK; try discriminate; cbn in *; [congruence|]. f_equal. apply IH, NK. }
          rewrite E, concat_app. cbn [concat]. now rewrite app_nil_r. }
        set (t0 := concat (firstn k chars)) in *.
        assert (UC' : utf8_char c') by (unfold utf8_text in UT; rewrite Forall_forall in UT; apply UT; eapply nth_error_In, NK).
        assert (L1 : Z.of_nat (length t1) = n - 1) by lia.
        assert (LT1 : length t1 = (length t0 + length c')%nat) by (rewrite TS, app_length; reflexivity).
        assert (MC : forall i, (i < length c')%nat -> m1 (a + Z.of_nat (length t0) + Z.of_nat i) = nth i c' 0).
        { intros i I. unfold m1. cbn [firstn]. rewrite app_nil_r. replace (a + Z.of_nat (length t0) + Z.of_nat i) with (a + Z.of_nat (length t0 + i)) by lia.
          rewrite wrote_at by lia. rewrite TS, app_nth2 by lia. f_equal. lia. }
        destruct (char_shape c' UC') as [(b & -> & BR) | (l & rest & EC & LR & CT & LEN & LL)].
        + specialize (MC 0%nat ltac:(cbn; lia)). cbn [nth] in MC. cbn [length] in *. replace (a + (n - 1 - 1)) with (a + Z.of_nat (length t0) + Z.of_nat 0) by lia.
          rewrite MC. destruct (byte_tests b ltac:(lia)) as (_ & _ & _ & _ & T5). rewrite T5. replace (b <? 128) with true by lia. cbn [negb].
          unfold ret. f_equal. lia.
        + destruct (check_cut s1 (a + Z.of_nat (length t0)) c' (length c') (Z.to_nat (a + (n - 1))) UC') as [CK HB]; try lia.
          { rewrite MM1. exact MC. }
          replace (a + Z.of_nat (length t0) + Z.of_nat (length c') - 1) with (a + (n - 1) - 1) in * by lia. rewrite MM1 in HB.
          replace (a + (n - 1 - 1)) with (a + (n - 1) - 1) by lia.
          destruct (byte_tests _ (conj (Z.le_trans 0 128 _ ltac:(lia) (proj1 HB)) (proj2 HB))) as (_ & _ & _ & _ & T5). rewrite T5.
          replace (m1 (a + (n - 1) - 1) <? 128) with false by lia. cbn [negb]. unfold bind. rewrite CK, Nat.eqb_refl. unfold ret. f_equal.
          unfold u64. rewrite Z.mod_small by (unfold two63, two64 in *; lia). lia.
      - (* inside a character *)
        assert (L2 : (2 <= length c)%nat) by lia.
        assert (MC : forall i, (i < S r)%nat -> m1 (a + Z.of_nat (length t1) + Z.of_nat i) = nth i c 0).
        { intros i I. unfold m1. replace (a + Z.of_nat (length t1) + Z.of_nat i) with (a + Z.of_nat (length t1 + i)) by lia.
          assert (LF : length (firstn (S r) c) = S r) by (rewrite firstn_length; lia).
          rewrite wrote_at by (rewrite app_length, LF; lia). rewrite app_nth2 by lia. replace (length t1 + i - length t1)%nat with i by lia.
          rewrite <- (firstn_skipn (S r) c) at 2. rewrite app_nth1 by lia. reflexivity. }
        destruct (check_cut s1 (a + Z.of_nat (length t1)) c (S r) (Z.to_nat (a + (n - 1))) UC L2) as [CK HB]; try lia.
        { rewrite MM1. exact MC. }
        replace (a + Z.of_nat (length t1) + Z.of_nat (S r) - 1) with (a + (n - 1) - 1) in * by lia. rewrite MM1 in HB.
        replace (a + (n - 1 - 1)) with (a + (n - 1) - 1) by lia.
        destruct (byte_tests _ (conj (Z.le_trans 0 128 _ ltac:(lia) (proj1 HB)) (proj2 HB))) as (_ & _ & _ & _ & T5). rewrite T5.
        replace (m1 (a + (n - 1) - 1) <? 128) with false by lia. cbn [negb]. unfold bind. rewrite CK.
        replace (S r =? length c)%nat with false by (symmetry; apply Nat.eqb_neq; lia). unfold ret. f_equal.
        unfold u64. rewrite Z.mod_small by (unfold two63, two64 in *; lia). lia. }
    unfold bind at 1. rewrite CHK.
    assert (WL : wrap64 (Z.of_nat (length t1)) = Z.of_nat (length t1)) by (unfold wrap64, two63, two64 in *; lia).
    rewrite WL. unfold bind. rewrite wr8_ok by (rewrite MS1; lia). unfold ret.
    eexists. exists t1. split; [reflexivity|]. split.
    + exists k. split; [lia|]. split; [reflexivity|]. split; [lia|]. right. rewrite FS, app_length. lia.
    + split; [destruct s; reflexivity|]. unfold set_mem. cbn [mem]. rewrite MM1. unfold fill_bytes. change (0 mod 256) with 0. split; [|split].
      * intros i I. replace ((a + Z.of_nat (length t1) <=? a + Z.of_nat i) && (a + Z.of_nat i <? a + Z.of_nat (length t1) + 1)) with false by lia.
        unfold m1. rewrite wrote_at by (rewrite app_length; lia). now rewrite app_nth1.
      * replace ((a + Z.of_nat (length t1) <=? a + Z.of_nat (length t1)) && (a + Z.of_nat (length t1) <? a + Z.of_nat (length t1) + 1)) with true by lia. reflexivity.
      * intros x X. replace ((a + Z.of_nat (length t1) <=? x) && (x <? a + Z.of_nat (length t1) + 1)) with false by lia.
        unfold m1. apply write_bytes_out. lia.
  - (* the whole text *)
    rewrite firstn_all2 by lia. set (m1 := write_bytes (mem s) a src). set (s1 := set_mem m1 s).
    assert (MS1 : mem_size s1 = mem_size s) by reflexivity. assert (MM1 : mem s1 = m1) by reflexivity.
    unfold bind at 1. rewrite copy_in_ok by lia. fold m1. fold s1.
    unfold bind at 1. rewrite (rd8_ok (a + (len - 1))). 2:{ rewrite MS1. destruct src as [|? ?] eqn:E; [specialize (NE eq_refl); cbn in len; unfold len in *; lia|cbn [length] in len; unfold len in *; lia]. }
    rewrite andb_false_r. unfold bind at 1. unfold ret at 1.
    assert (WL : wrap64 len = len) by (unfold wrap64, two63, two64 in *; lia).
    rewrite WL. unfold bind. rewrite wr8_ok by (rewrite MS1; lia). unfold ret.
    eexists. exists src. split; [reflexivity|]. split.
    + exists (length chars). split; [lia|]. split; [unfold src; now rewrite firstn_all|]. split; [fold len; lia|]. now left.
    + split; [destruct s; reflexivity|]. unfold set_mem. cbn [mem]. rewrite MM1. fold len. split; [|split].
      * intros i I. unfold m1. rewrite wr8_end. replace ((a <=? a + Z.of_nat i) && (a + Z.of_nat i <? a + Z.of_nat (length src) + 1)) with true by lia.
        rewrite app_nth1 by lia. f_equal. lia.
      * unfold m1. rewrite wr8_end. fold len. replace ((a <=? a + len) && (a + len <? a + len + 1)) with true by lia.
        rewrite app_nth2 by lia. replace (Z.to_nat (a + len - a) - length src)%nat with 0%nat by lia. reflexivity.
      * intros x X. unfold m1. rewrite wr8_end. replace ((a <=? x) && (x <? a + Z.of_nat (length src) + 1)) with false by lia. reflexivity.
Qed.

(* ---- What is not checked ---- *)
Definition demo : rt := make_rt [65; 0xC3; 0x7A; 0] 4096 true true.
Lemma one_byte : let a := 2 in plugin_address demo a /\ utf8_text [[66]] /\ a + 1 <= data_size demo /\
  exists s', StringToLocalUTF8 a 1 [66] demo = Ok (Some (two64 - 1)) s' /\ mem demo (a - 1) = 0xC3 /\ mem s' (a - 1) = 0 /\ mem s' a = 0x7A.
Proof.
  cbv zeta. split; [split; [vm_compute; split; [discriminate|reflexivity]|vm_compute; intros [G _]; now apply G]|].
  split; [apply Forall_cons; [apply u1; lia|apply Forall_nil]|]. split; [vm_compute; discriminate|].
  assert (E : match StringToLocalUTF8 2 1 [66] demo with
              | Ok (Some n) s' => (n =? two64 - 1) && (mem demo 1 =? 0xC3) && (mem s' 1 =? 0) && (mem s' 2 =? 0x7A) | _ => false end = true)
    by (vm_compute; reflexivity).
  change (2 - 1) with 1.
  destruct (StringToLocalUTF8 2 1 [66] demo) as [[n|] s'| |]; try discriminate. rewrite !andb_true_iff, !Z.eqb_eq in E.
  destruct E as [[[-> E1] E2] E3]. exists s'. auto.
Qed.
Lemma empty_at_start : plugin_address demo 0 /\ StringToLocalUTF8 0 4 [] demo = UB UBMem.
Proof. split; [split; [vm_compute; split; [discriminate|reflexivity]|vm_compute; intros [G _]; now apply G]|vm_compute; reflexivity]. Qed.
Lemma past_end : let a := mem_size demo - 1 in plugin_address demo a /\ StringToLocal a 4 [66; 67] demo = UB UBMem.
Proof. cbv zeta. split; [split; [vm_compute; split; [discriminate|reflexivity]|vm_compute; intros [_ G]; discriminate]|vm_compute; reflexivity]. Qed.
Lemma past_end_exists : exists s a n src, plugin_address s a /\ c_string src /\ StringToLocal a n src s = UB UBMem.
Proof.
  exists demo, (mem_size demo - 1), 4, [66; 67]. split; [exact (proj1 past_end)|]. split; [|exact (proj2 past_end)].
  repeat (apply Forall_cons; [lia|]). apply Forall_nil.
Qed.
Lemma one_byte_exists : exists s a chars, plugin_address s a /\ utf8_text chars /\ a + 1 <= data_size s /\
  exists s', StringToLocalUTF8 a 1 (concat chars) s = Ok (Some (two64 - 1)) s' /\
    mem s' (a - 1) <> mem s (a - 1) /\ mem s' a <> 0.
Proof.
  destruct one_byte as (P & U & D & s' & E & M0 & M1 & M2). exists demo, 2, [[66]]. split; [exact P|]. split; [exact U|]. split; [exact D|].
  exists s'. split; [exact E|]. rewrite M0, M1, M2. split; discriminate.
Qed.
Lemma invalid_exists : exists s a src, plugin_address s a /\ c_string src /\ a + 2 <= data_size s /\
  exists s', StringToLocalUTF8 a 2 src s = Ok (Some (two64 - 1)) s' /\ mem s' (a - 1) <> mem s (a - 1) /\ mem s' a <> 0 /\ mem s' (a + 1) <> 0.
Proof.
  exists demo, 1, [0x80; 0x80]. split; [split; [vm_compute; split; [discriminate|reflexivity]|vm_compute; intros [G _]; now apply G]|].
  split; [repeat (apply Forall_cons; [lia|]); apply Forall_nil|]. split; [vm_compute; discriminate|].
  assert (E : match StringToLocalUTF8 1 2 [0x80; 0x80] demo with
              | Ok (Some n) s' => (n =? two64 - 1) && negb (mem s' 0 =? mem demo 0) && negb (mem s' 1 =? 0) && negb (mem s' 2 =? 0) | _ => false end = true)
    by (vm_compute; reflexivity).
  change (1 - 1) with 0. change (1 + 1) with 2.
  destruct (StringToLocalUTF8 1 2 [0x80; 0x80] demo) as [[n|] s'| |]; try discriminate. rewrite !andb_true_iff in E.
  destruct E as [[[E0 E1] E2] E3]. exists s'. assert (n = two64 - 1) as -> by lia. split; [reflexivity|]. lia.
Qed.
