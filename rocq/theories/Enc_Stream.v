From Coq Require Import Lia ZifyBool.
From Verif Require Import Base Enc_Model Enc_Spec Enc_Meant Enc_Proofs.
Ltac Zify.zify_post_hook ::= idtac.

(* ---- Sequences ---- *)
Theorem stream_right : forall l, (forall c, In c l -> takes c = true /\ sound c = true) -> decodes (asm_all l) (map meant l).
Proof.
  intros l. induction l as [|c l IH]; intros H; [constructor|].
  change (asm_all (c :: l)) with (asm c ++ asm_all l). cbn [map]. apply Dcons with (t := asm_all l).
  - destruct (H c (or_introl eq_refl)) as (A & B). apply encoded; assumption.
  - apply IH. intros c' I. apply H. right. exact I.
Qed.
Theorem const_right : forall d v, i64 v = true -> sets (mov_const d v) = Some (d, v mod two64).
Proof.
  intros d v V. unfold mov_const. destruct ((0 <=? v) && (v <=? 4294967295)) eqn:E; [|reflexivity].
  cbn [sets]. f_equal. f_equal.
  transitivity v; [|symmetry; apply Z.mod_small; unfold two64; lia].
  assert (K : 0 <= v < two32) by (unfold two32; lia). unfold signed.
  destruct (v <? two32 / 2); [apply Z.mod_small; exact K|].
  replace (v - two32) with (v + (-1) * two32) by ring. rewrite Z.mod_add by (unfold two32; lia). apply Z.mod_small; exact K.
Qed.

(* ---- Lengths ---- *)
Lemma op_len : forall a, (length (o_bytes (operand_of a)) <= 6)%nat.
Proof. intros a. destruct a; cbn [operand_of]; repeat match goal with |- context [if ?c then _ else _] => destruct c end; cbn; lia. Qed.
Lemma modrm_len : forall o x, (length (emit_modrm o x) <= 6)%nat.
Proof.
  intros o [r|a]; cbn [emit_modrm length]; [lia|]. assert (K := op_len a). destruct (o_bytes (operand_of a)); cbn [length] in *; lia.
Qed.
Lemma maybe_len : forall b, (length (maybe_emit_rex b) <= 1)%nat.
Proof. intros b. unfold maybe_emit_rex. destruct (b =? 0); cbn; lia. Qed.
Theorem asm_len : forall c, (1 <= length (asm c) <= 15)%nat.
Proof.
  intros c.
  destruct c; cbn [asm]; unfold alu_imm_64, alu_imm_32, alu_imm_32_op, shift_imm_64, shift_imm_32;
  unfold emit1_64, emit1, emit2_64, emit2, emit3_sse, emit4_sse, emit1_maybe_rex, emit1_64_rex, emit1_64_byte, le64, emit_rex_64;
  repeat match goal with
         | |- context [if ?b then _ else _] => destruct b
         | |- context [match ?x with R _ => _ | M _ => _ end] => destruct x as [[|?|?]|?]
         end; cbv beta iota;
  repeat (rewrite ?app_length; cbn [length le32 app]);
  repeat match goal with
         | |- context [length (emit_modrm ?o ?x)] => let K := fresh in assert (K := modrm_len o x); generalize dependent (length (emit_modrm o x)); intros
         | |- context [length (maybe_emit_rex ?b)] => let K := fresh in assert (K := maybe_len b); generalize dependent (length (maybe_emit_rex b)); intros
         end; cbn [length]; lia.
Qed.

(* ---- The buffer ---- *)
Definition inside (b : buffer) : Prop := 0 <= b_pos b <= b_cap b /\ 4096 <= b_cap b.
Lemma append_inside : forall ok n b, inside b -> 0 <= n <= kMaxInstructionSize -> b_oom b = false ->
  exists b', append ok n b = Some b' /\ inside b'.
Proof.
  intros ok n b (A & C) N O. unfold append, ensureSpace. rewrite O. unfold kMaxInstructionSize in *.
  destruct (b_pos b + 32 <=? b_cap b) eqn:E1.
  - replace (b_pos b + n <=? b_cap b) with true by lia. eexists. split; [reflexivity|]. unfold inside. cbn [b_pos b_cap]. lia.
  - destruct (kMaxBufferSize <? b_cap b * 2); [|destruct ok]; cbn [b_pos b_cap b_oom].
    + replace (0 + n <=? b_cap b) with true by lia. eexists. split; [reflexivity|]. unfold inside. cbn [b_pos b_cap]. lia.
    + replace (b_pos b + n <=? b_cap b * 2) with true by lia. eexists. split; [reflexivity|]. unfold inside. cbn [b_pos b_cap]. lia.
    + replace (0 + n <=? b_cap b) with true by lia. eexists. split; [reflexivity|]. unfold inside. cbn [b_pos b_cap]. lia.
Qed.
Definition total (l : list (bool * Z)) : Z := fold_right (fun p s => snd p + s) 0 l.
Lemma ensure_keeps : forall ok b, b_oom (ensureSpace ok b) = false -> b_pos (ensureSpace ok b) = b_pos b /\ b_oom b = false.
Proof.
  intros ok b H. unfold ensureSpace in *.
  destruct (b_pos b + kMaxInstructionSize <=? b_cap b); [auto|]. destruct (b_oom b) eqn:O; [congruence|].
  destruct (kMaxBufferSize <? b_cap b * 2); [discriminate H|]. destruct ok; [auto | discriminate H].
Qed.
Lemma oom_stays : forall l b b', append_all l b = Some b' -> b_oom b' = false -> b_oom b = false.
Proof.
  intros l. induction l as [|(ok, n) l IH]; intros b b' H O; cbn [append_all] in H; [congruence|].
  destruct (append ok n b) as [b1|] eqn:A; [|discriminate H]. assert (O1 := IH b1 b' H O).
  unfold append in A. destruct (b_pos (ensureSpace ok b) + n <=? b_cap (ensureSpace ok b)); [|discriminate A].
  injection A as <-. cbn [b_oom] in O1. apply (ensure_keeps ok b O1).
Qed.
(* As long as memory has not run out: everything is written, in its place, within the buffer. *)
Theorem buffer_right : forall l, (forall p, In p l -> 0 <= snd p <= kMaxInstructionSize) ->
  forall b, inside b -> b_oom b = false ->
  (exists b', append_all l b = Some b' /\ inside b' /\ b_oom b' = false /\ b_pos b' = b_pos b + total l)
  \/ (exists l1 l2 b', l = l1 ++ l2 /\ append_all l1 b = Some b' /\ b_oom b' = true).
Proof.
  intros l. induction l as [|(ok, n) l IH]; intros H b IN O.
  - left. exists b. split; [reflexivity|]. split; [exact IN|]. split; [exact O|]. cbn. lia.
  - destruct (append_inside ok n b IN (H _ (or_introl eq_refl)) O) as (b1 & A & IN1).
    destruct (b_oom b1) eqn:O1.
    + right. exists [(ok, n)], l, b1. cbn [append_all app]. rewrite A. auto.
    + assert (P1 : b_pos b1 = b_pos b + n).
      { unfold append in A. destruct (b_pos (ensureSpace ok b) + n <=? b_cap (ensureSpace ok b)); [|discriminate A].
        injection A as <-. cbn [b_oom] in O1. cbn [b_pos]. destruct (ensure_keeps ok b O1) as (-> & _). reflexivity. }
      destruct (IH (fun p I => H p (or_intror I)) b1 IN1 O1) as [(b' & E & I' & T) | (l1 & l2 & b' & E & E' & T)].
      * left. exists b'. cbn [append_all]. rewrite A. split; [exact E|]. split; [exact I'|]. destruct T as (T1 & T2). split; [exact T1|]. rewrite T2, P1.
        cbn [total fold_right snd]. fold (total l). lia.
      * right. exists ((ok, n) :: l1), l2, b'. cbn [append_all app]. rewrite A, E. auto.
Qed.

(* ---- Constants before the code ---- *)
Lemma rev_nth : forall (T more : list Z) v,
  nth_error (rev ((T ++ [v]) ++ more)) (length more) = Some v.
Proof.
  intros T more v. rewrite <- app_assoc, rev_app_distr. cbn [app rev]. rewrite <- app_assoc. cbn [app].
  rewrite nth_error_app2 by (rewrite rev_length; lia). rewrite rev_length, Nat.sub_diag. reflexivity.
Qed.
Theorem rip_right : forall first v s s' n f,
  (first, n, f) = ([255; rip_modrm 2], 2, ICall) \/ (first, n, f) = ([255; rip_modrm 4], 4, IJump) ->
  rip_constant first v s = Some s' ->
  exists d, s_code s' = s_code s ++ first ++ le32 d /\ (forall t, decode ((first ++ le32 d) ++ t) = Some (f (PRip d), t))
  /\ forall a whole code2 more, whole = mkStream (s_code s' ++ code2) (s_table s' ++ more) ->
     word a whole (entry a whole + pc s' + d) = Some v.
Proof.
  intros first v s s' n f F H. unfold rip_constant in H.
  destruct (two31 - 1 - (slots s + 1) * 8 <? pc s + Z.of_nat (length first) + 4) eqn:E; [discriminate H|]. injection H as <-. cbn [s_code s_table].
  set (d := - (pc s + Z.of_nat (length first) + 4 + (slots s + 1) * 8)). exists d.
  split; [reflexivity|].
  assert (D : i32 d = true).
  { unfold i32, d, pc, slots, two31 in *. lia. }
  split.
  - intros t. destruct F as [F|F]; injection F as -> -> ->; rewrite <- app_assoc.
    + cbn [app]. unfold decode, decode_rex, decode_op. cbn [Z.eqb Pos.eqb].
      transitivity (run_form None (FRm grp5) (rip_modrm 2 :: le32 d ++ t)); [reflexivity|].
      unfold run_form, get_modrm. change (rip_modrm 2 / 64 =? 3) with false. change (rip_modrm 2 mod 8 =? 4) with false.
      change ((rip_modrm 2 mod 8 =? 5) && (rip_modrm 2 / 64 =? 0)) with true. cbn iota. rewrite get32_i32 by exact D. reflexivity.
    + cbn [app]. transitivity (run_form None (FRm grp5) (rip_modrm 4 :: le32 d ++ t)); [reflexivity|].
      unfold run_form, get_modrm. change (rip_modrm 4 / 64 =? 3) with false. change (rip_modrm 4 mod 8 =? 4) with false.
      change ((rip_modrm 4 mod 8 =? 5) && (rip_modrm 4 / 64 =? 0)) with true. cbn iota. rewrite get32_i32 by exact D. reflexivity.
  - intros a whole code2 more ->. unfold word, entry, pc, slots. cbn [s_code s_table].
    match goal with |- context [nth_error _ (Z.to_nat ((?x - a) / 8))] => set (p := x) end.
    assert (P : p = a + 8 * Z.of_nat (length more)).
    { unfold p, d, pc, slots. rewrite !app_length. cbn [length]. rewrite !Nat2Z.inj_add. cbn [length le32]. lia. }
    rewrite P. replace (a + 8 * Z.of_nat (length more) - a) with (Z.of_nat (length more) * 8) by lia.
    rewrite Z.mod_mul, Z.div_mul by lia. replace ((0 =? 0) && (a <=? a + 8 * Z.of_nat (length more))) with true by lia.
    rewrite Nat2Z.id. apply rev_nth.
Qed.
Theorem data_label_right : forall orig_rip s T E a whole code2 more k v,
  s_table s = T ++ rev E -> nth_error E k = Some v ->
  whole = mkStream (s_code s ++ code2) (s_table s ++ more) ->
  word a whole (entry a whole + orig_rip + data_label orig_rip s + 8 * Z.of_nat k) = Some v.
Proof.
  intros orig_rip s T E a whole code2 more k v TT N ->. unfold word, entry, data_label, slots. cbn [s_table].
  match goal with |- context [nth_error _ (Z.to_nat ((?x - a) / 8))] => set (p := x) end.
  assert (P : p = a + 8 * Z.of_nat (length more + k)). { unfold p. rewrite app_length. lia. }
  rewrite P. replace (a + 8 * Z.of_nat (length more + k) - a) with (Z.of_nat (length more + k) * 8) by lia.
  rewrite Z.mod_mul, Z.div_mul by lia. replace ((0 =? 0) && (a <=? a + 8 * Z.of_nat (length more + k))) with true by lia.
  rewrite Nat2Z.id. rewrite rev_app_distr, nth_error_app2 by (rewrite rev_length; lia). rewrite rev_length.
  replace (length more + k - length more)%nat with k by lia. rewrite TT, rev_app_distr, rev_involutive.
  rewrite nth_error_app1 by (apply nth_error_Some; congruence). exact N.
Qed.

(* ---- Jumps ---- *)
Definition jumps (j : jump) (d : Z) : mi :=
  match j with JCall => ICallRel d | JJmp | JJmp32 => IJumpRel d | JJ cc | JJ32 cc => IJcc cc d end.
Definition ok_jump (j : jump) : bool := match j with JJ cc | JJ32 cc => (0 <=? cc) && (cc <=? 15) | _ => true end.
Lemma jcc : forall cc d t, reg cc = true -> i32 d = true ->
  decode (([15; byte (128 + cc)] ++ le32 d) ++ t) = Some (IJcc cc d, t)
  /\ (is_i8 d = true -> decode ([byte (112 + cc); byte d] ++ t) = Some (IJcc cc d, t)).
Proof.
  intros cc d t CC D. assert (G := get32_i32 d t D).
  split; [|intros D8; assert (G8 := get8_byte d t D8)]; each_reg cc CC.
  all: try (cbn [app]; match goal with |- decode (_ :: byte (128 + ?c) :: _) = _ =>
      transitivity (onto (get32 (le32 d ++ t)) (IJcc c)); [reflexivity | rewrite G; reflexivity] end).
  all: cbn [app]; match goal with |- decode (byte (112 + ?c) :: _) = _ =>
      transitivity (onto (get8 (byte d :: t)) (IJcc c)); [reflexivity | rewrite G8; reflexivity] end.
Qed.
Theorem jump_right : forall j position target, ok_jump j = true ->
  0 <= position < two31 / 2 -> 0 <= target < two31 / 2 ->
  exists d, (forall t, decode (jump_to j position target ++ t) = Some (jumps j d, t))
    /\ position + Z.of_nat (length (jump_to j position target)) + d = target.
Proof.
  intros j p target J P T. unfold two31 in P, T. change (2147483648 / 2) with 1073741824 in *.
  assert (LONG : exists d, (forall t, decode (long_jump j p target ++ t) = Some (jumps j d, t))
    /\ p + Z.of_nat (length (long_jump j p target)) + d = target).
  { exists (target - (p + Z.of_nat (length (long_opcode j)) + 4)). set (d := target - _).
    assert (D : i32 d = true) by (unfold i32, d, two31; destruct j; cbn [long_opcode length]; lia).
    split.
    - intros t. unfold long_jump. fold d. destruct j as [| | |cc|cc]; cbn [long_opcode jumps ok_jump] in *.
      + rewrite <- app_assoc. cbn [app]. etransitivity; [eapply acc32; try exact D; reflexivity | reflexivity].
      + rewrite <- app_assoc. cbn [app]. etransitivity; [eapply acc32; try exact D; reflexivity | reflexivity].
      + rewrite <- app_assoc. cbn [app]. etransitivity; [eapply acc32; try exact D; reflexivity | reflexivity].
      + apply (jcc cc d t); [exact J | exact D].
      + apply (jcc cc d t); [exact J | exact D].
    - unfold long_jump. rewrite app_length. cbn [length le32]. unfold d. lia. }
  unfold jump_to. destruct j as [| | |cc|cc]; cbn [short_opcode]; try exact LONG;
    (destruct (is_i8 (target - (p + 2))) eqn:I8; [|exact LONG]); exists (target - (p + 2)); (split; [|cbn [length]; lia]); intros t.
  - cbn [app jumps]. transitivity (onto (get8 (byte (target - (p + 2)) :: t)) IJumpRel); [reflexivity|]. rewrite get8_byte by exact I8. reflexivity.
  - apply (jcc cc _ t); [exact J | unfold i32, two31; lia | exact I8].
Qed.
