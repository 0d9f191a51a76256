From Coq Require Import Lia ZifyBool.
From Verif Require Import Base Enc_Model Enc_Spec Enc_Meant.
Ltac Zify.zify_post_hook ::= Z.div_mod_to_equations.

(* ---- Numbers ---- *)
Lemma get8_byte : forall v t, is_i8 v = true -> get8 (byte v :: t) = Some (v, t).
Proof.
  intros v t H. unfold get8, byte, signed, is_i8 in *. change (256 / 2) with 128. f_equal. f_equal.
  destruct (v mod 256 <? 128) eqn:E; lia.
Qed.
Lemma get32_le : forall v t, get32 (le32 v ++ t) = Some (signed two32 (v mod two32), t).
Proof.
  intros v t. unfold get32, le32. cbn [app]. f_equal. f_equal. f_equal. unfold two32. lia.
Qed.
Lemma signed32 : forall v, i32 v = true -> signed two32 (v mod two32) = v.
Proof.
  intros v H. unfold i32, signed, two31, two32 in *. change (4294967296 / 2) with 2147483648.
  destruct (v mod 4294967296 <? 2147483648) eqn:E; lia.
Qed.
Lemma get32_i32 : forall v t, i32 v = true -> get32 (le32 v ++ t) = Some (v, t).
Proof. intros v t H. rewrite get32_le, signed32 by exact H. reflexivity. Qed.
Lemma quad : forall v, v mod 256 + 256 * (v / 256 mod 256 + 256 * (v / 65536 mod 256 + 256 * (v / 16777216 mod 256))) = v mod two32.
Proof. intros v. unfold two32. lia. Qed.
Lemma get64_le : forall v t, get64 (le64 v ++ t) = Some (signed two64 (v mod two64), t).
Proof.
  intros v t. unfold get64, le64, le32. cbn [app]. f_equal. f_equal. f_equal.
  transitivity (v mod two32 + two32 * (v / two32 mod two32)).
  - rewrite <- (quad v), <- (quad (v / two32)). unfold two32. ring.
  - unfold two32, two64. lia.
Qed.
Lemma get64_i64 : forall v t, i64 v = true -> get64 (le64 v ++ t) = Some (v, t).
Proof. intros v t H. rewrite get64_le. f_equal. f_equal. unfold i64, signed, two63, two64 in *.
  change (18446744073709551616 / 2) with 9223372036854775808.
  destruct (v mod 18446744073709551616 <? 9223372036854775808) eqn:E; lia.
Qed.
Ltac Zify.zify_post_hook ::= idtac.

(* ---- Finite facts ---- *)
Definition upto (n : nat) : list Z := map Z.of_nat (seq 0 n).
Lemma in_upto : forall n v, 0 <= v < Z.of_nat n -> In v (upto n).
Proof. intros n v H. unfold upto. apply in_map_iff. exists (Z.to_nat v). split; [lia|]. apply in_seq. lia. Qed.
Lemma all1 : forall n f, forallb f (upto n) = true -> forall v, 0 <= v < Z.of_nat n -> f v = true.
Proof. intros n f H v R. rewrite forallb_forall in H. apply H, in_upto, R. Qed.
Lemma all3 : forall n1 n2 n3 (f : Z -> Z -> Z -> bool),
  forallb (fun a => forallb (fun b => forallb (f a b) (upto n3)) (upto n2)) (upto n1) = true ->
  forall a b c, 0 <= a < Z.of_nat n1 -> 0 <= b < Z.of_nat n2 -> 0 <= c < Z.of_nat n3 -> f a b c = true.
Proof.
  intros n1 n2 n3 f H a b c A B C. refine (all1 n3 (f a b) _ c C).
  refine (all1 n2 (fun b => forallb (f a b) (upto n3)) _ b B).
  exact (all1 n1 (fun a => forallb (fun b => forallb (f a b) (upto n3)) (upto n2)) H a A).
Qed.
Lemma reg_parts : forall r, reg r = true ->
  low_bits r + 8 * rex_bit r = r /\ 0 <= low_bits r < 8 /\ 0 <= rex_bit r < 2 /\ low_bits r = r mod 8.
Proof.
  intros r H. assert (K := all1 16 (fun r => (low_bits r + 8 * rex_bit r =? r) && (0 <=? low_bits r) && (low_bits r <? 8)
    && (0 <=? rex_bit r) && (rex_bit r <? 2) && (low_bits r =? r mod 8)) eq_refl r). unfold reg in H. cbv beta in K. lia.
Qed.
(* The three fields of a ModR/M or SIB byte. *)
Lemma fields : forall a b c, 0 <= a < 4 -> 0 <= b < 8 -> 0 <= c < 8 ->
  let m := Z.lor (Z.lor (Z.shiftl a 6) (Z.shiftl b 3)) c in
  m / 64 = a /\ m / 8 mod 8 = b /\ m mod 8 = c /\ 0 <= m < 256.
Proof.
  intros a b c A B C. assert (K := all3 4 8 8 (fun a b c => let m := Z.lor (Z.lor (Z.shiftl a 6) (Z.shiftl b 3)) c in
    (m / 64 =? a) && (m / 8 mod 8 =? b) && (m mod 8 =? c) && (0 <=? m) && (m <? 256)) eq_refl a b c A B C).
  cbv beta in K. cbv zeta in *. lia.
Qed.
Lemma fields' : forall a b c, 0 <= a < 4 -> 0 <= b < 8 -> 0 <= c < 8 ->
  byte (Z.lor (Z.lor (Z.shiftl a 6) c) (Z.shiftl b 3)) = Z.lor (Z.lor (Z.shiftl a 6) (Z.shiftl b 3)) c.
Proof.
  intros a b c A B C. assert (K := all3 4 8 8 (fun a b c => byte (Z.lor (Z.lor (Z.shiftl a 6) c) (Z.shiftl b 3))
    =? Z.lor (Z.lor (Z.shiftl a 6) (Z.shiftl b 3)) c) eq_refl a b c A B C). cbv beta in K. lia.
Qed.
Lemma fields'' : forall a b c, 0 <= a < 4 -> 0 <= b < 8 -> 0 <= c < 8 ->
  byte (Z.lor (Z.lor (Z.shiftl a 6) (Z.shiftl b 3)) c) = Z.lor (Z.lor (Z.shiftl a 6) (Z.shiftl b 3)) c.
Proof.
  intros a b c A B C. assert (K := all3 4 8 8 (fun a b c => byte (Z.lor (Z.lor (Z.shiftl a 6) (Z.shiftl b 3)) c)
    =? Z.lor (Z.lor (Z.shiftl a 6) (Z.shiftl b 3)) c) eq_refl a b c A B C). cbv beta in K. lia.
Qed.
(* The four bits of a REX prefix. *)
Lemma rex_fields : forall r x b, 0 <= r < 2 -> 0 <= x < 2 -> 0 <= b < 2 ->
  let v := Z.lor (Z.shiftl r 2) (Z.lor (Z.shiftl x 1) b) in
  v = 4 * r + 2 * x + b /\ Z.lor 64 v = 64 + v /\ Z.lor 72 v = 64 + (8 + v)
  /\ rexR v = r /\ rexX v = x /\ rexB v = b /\ rexR (8 + v) = r /\ rexX (8 + v) = x /\ rexB (8 + v) = b
  /\ width v = 32 /\ width (8 + v) = 64.
Proof.
  intros r x b A B C. assert (K := all3 2 2 2 (fun r x b => let v := Z.lor (Z.shiftl r 2) (Z.lor (Z.shiftl x 1) b) in
    (v =? 4 * r + 2 * x + b) && (Z.lor 64 v =? 64 + v) && (Z.lor 72 v =? 64 + (8 + v))
    && (rexR v =? r) && (rexX v =? x) && (rexB v =? b) && (rexR (8 + v) =? r) && (rexX (8 + v) =? x) && (rexB (8 + v) =? b)
    && (width v =? 32) && (width (8 + v) =? 64)) eq_refl r x b A B C).
  cbv beta in K. cbv zeta in *. repeat rewrite Bool.andb_true_iff in K. repeat rewrite Z.eqb_eq in K. tauto.
Qed.

(* ---- ModR/M, SIB, displacement ---- *)
Definition opnum (o : opreg) : Z := match o with OReg r => r | OExt n => n end.
Definition ok_op (o : opreg) : bool := match o with OReg r => reg r | OExt n => alu_op n end.
Lemma op_parts : forall o, ok_op o = true ->
  opreg_bits o + 8 * rex_bit_for_reg o = opnum o /\ 0 <= opreg_bits o < 8 /\ 0 <= rex_bit_for_reg o < 2.
Proof.
  intros [r|n] H; cbn [opreg_bits rex_bit_for_reg opnum ok_op] in *.
  - destruct (reg_parts r H) as (A & B & C & _). auto.
  - unfold alu_op in H. lia.
Qed.
Definition xbit (x : rm) : Z := match x with M (AIndex _ i _ _) => rex_bit i | _ => 0 end.
Definition bbit (x : rm) : Z :=
  match x with R r | M (ABase r _) | M (AScale r _ _) | M (AIndex r _ _ _) => rex_bit r | M (AAbs _) => 0 end.

Ltac bsplit :=
  repeat match goal with
         | H : _ && _ = true |- _ => apply andb_prop in H; destruct H
         end.
Lemma rm_bits : forall x, ok_rm x = true ->
  rex_bits_for_rm x = Z.lor (Z.shiftl (xbit x) 1) (bbit x) /\ 0 <= xbit x < 2 /\ 0 <= bbit x < 2.
Proof.
  intros [r|[r d|b s d|b i s d|v]] H; cbn [ok_rm ok_addr] in H; bsplit; cbn [rex_bits_for_rm xbit bbit].
  - destruct (reg_parts r H) as (_ & _ & B & _). split; [reflexivity|lia].
  - destruct (reg_parts r) as (_ & _ & B & _); [assumption|]. split; [|lia].
    cbn [operand_of]. repeat match goal with |- context [if ?c then _ else _] => destruct c end; reflexivity.
  - destruct (reg_parts b) as (_ & _ & B & _); [assumption|]. split; [|lia].
    cbn [operand_of]. repeat match goal with |- context [if ?c then _ else _] => destruct c end; reflexivity.
  - destruct (reg_parts b) as (_ & _ & B & _); [assumption|]. destruct (reg_parts i) as (_ & _ & C & _); [assumption|].
    split; [|lia].
    cbn [operand_of]. repeat match goal with |- context [if ?c then _ else _] => destruct c end; reflexivity.
  - split; [reflexivity|lia].
Qed.

(* A memory operand's first byte has its mode, a clear reg field and r/m; the reg field is added. *)
Lemma modrm_first : forall x md lo n p t k, 0 <= md < 3 -> 0 <= lo < 8 -> 0 <= n < 8 ->
  (if lo =? 4 then get_sib x md t
   else if (lo =? 5) && (md =? 0) then onto (get32 t) PRip
   else displaced md (PMem (Some (lo + 8 * rexB x)) None) t) = Some (p, k) ->
  get_modrm x (byte (Z.lor (Z.lor (Z.shiftl md 6) lo) (Z.shiftl n 3)) :: t) = Some ((n + 8 * rexR x, n, p), k).
Proof.
  intros x md lo n p t k A B C H. rewrite fields' by lia. unfold get_modrm.
  destruct (fields md n lo) as (E1 & E2 & E3 & _); try lia. cbv zeta in *. rewrite E1, E2, E3.
  replace (md =? 3) with false by lia. rewrite H. reflexivity.
Qed.
Lemma sib_right : forall x md sc i b t p k, 0 <= md < 3 -> 0 <= sc < 4 -> reg i = true -> reg b = true ->
  rexX x = rex_bit i -> rexB x = rex_bit b ->
  (if (low_bits b =? 5) && (md =? 0) then onto (get32 t) (PMem None (if i =? 4 then None else Some (i, 2 ^ sc)))
   else displaced md (PMem (Some b) (if i =? 4 then None else Some (i, 2 ^ sc))) t) = Some (p, k) ->
  get_sib x md (Z.lor (Z.lor (Z.shiftl sc 6) (Z.shiftl (low_bits i) 3)) (low_bits b) :: t) = Some (p, k).
Proof.
  intros x md sc i b t p k A B C D RX RB H. unfold get_sib.
  destruct (reg_parts i C) as (I1 & I2 & _). destruct (reg_parts b D) as (B1 & B2 & _).
  destruct (fields sc (low_bits i) (low_bits b)) as (E1 & E2 & E3 & _); try lia. cbv zeta in *. rewrite E1, E2, E3, RX, RB, I1, B1. exact H.
Qed.
Lemma displaced8 : forall f d t, is_i8 d = true -> displaced 1 f (byte d :: t) = Some (f d, t).
Proof. intros f d t H. unfold displaced. cbn [Z.eqb Pos.eqb]. rewrite get8_byte by exact H. reflexivity. Qed.
Lemma displaced32 : forall f d t, i32 d = true -> displaced 2 f (le32 d ++ t) = Some (f d, t).
Proof. intros f d t H. unfold displaced. cbn [Z.eqb Pos.eqb]. rewrite get32_i32 by exact H. reflexivity. Qed.

(* The three sizes of displacement, with and without SIB. *)
Lemma plain_right : forall x o r d t, reg r = true -> i32 d = true -> ok_op o = true ->
  r <> rsp -> r <> r12 -> rexR x = rex_bit_for_reg o -> rexB x = rex_bit r ->
  get_modrm x (emit_modrm o (M (ABase r d)) ++ t) = Some ((opnum o, opreg_bits o, PMem (Some r) None d), t).
Proof.
  intros x o r d t H1 H2 H3 N1 N2 RR RB. destruct (op_parts o H3) as (P1 & P2 & P3). destruct (reg_parts r H1) as (Q1 & Q2 & Q3 & Q4).
  assert (L4 : low_bits r <> 4). { unfold reg in H1. unfold rsp, r12 in *. rewrite Q4. intros K. assert (r = 4 \/ r = 12) by (clear - K H1; Z.div_mod_to_equations; lia). lia. }
  assert (L5 : low_bits r = 5 -> r = rbp \/ r = r13).
  { unfold reg in H1. unfold rbp, r13. rewrite Q4. intros K. clear - K H1. Z.div_mod_to_equations; lia. }
  unfold emit_modrm. cbn [operand_of].
  replace ((r =? rsp) || (r =? r12)) with false by lia.
  destruct ((d =? 0) && negb (r =? rbp) && negb (r =? r13)) eqn:E; [|destruct (is_i8 d) eqn:E8];
    cbn [modrm_disp0 modrm_disp8 modrm_disp32 with_disp modrm o_bytes app].
  - rewrite <- P1, <- RR. apply modrm_first; try lia.
    replace (low_bits r =? 4) with false by lia. replace ((low_bits r =? 5) && (0 =? 0)) with false by lia.
    cbn [displaced Z.eqb]. rewrite RB, Q1. replace d with 0 by lia. reflexivity.
  - rewrite <- P1, <- RR. apply modrm_first; try lia.
    replace (low_bits r =? 4) with false by lia. replace ((low_bits r =? 5) && (1 =? 0)) with false by lia.
    rewrite RB, Q1. apply displaced8, E8.
  - rewrite <- P1, <- RR. apply modrm_first; try lia.
    replace (low_bits r =? 4) with false by lia. replace ((low_bits r =? 5) && (2 =? 0)) with false by lia.
    rewrite RB, Q1. apply displaced32, H2.
Qed.
Definition indexed (i sc : Z) : option (Z * Z) := if i =? 4 then None else Some (i, 2 ^ sc).
Lemma sib_case : forall x o b i sc d t, reg b = true -> reg i = true -> 0 <= sc < 4 -> i32 d = true -> ok_op o = true ->
  rexR x = rex_bit_for_reg o -> rexX x = rex_bit i -> rexB x = rex_bit b ->
  forall l, l = o_bytes (if (d =? 0) && negb (b =? rbp) && negb (b =? r13) then sib_disp0 sc i b
                         else if is_i8 d then sib_disp8 sc i b d else sib_disp32 sc i b d) ->
  get_modrm x (match l with c :: r => byte (Z.lor c (Z.shiftl (opreg_bits o) 3)) :: r | [] => [] end ++ t)
  = Some ((opnum o, opreg_bits o, PMem (Some b) (indexed i sc) d), t).
Proof.
  intros x o b i sc d t H1 H2 H3 H4 H5 RR RX RB l ->. destruct (op_parts o H5) as (P1 & P2 & P3). destruct (reg_parts b H1) as (Q1 & Q2 & Q3 & Q4).
  assert (L5 : low_bits b = 5 -> b = rbp \/ b = r13).
  { unfold reg in H1. unfold rbp, r13. rewrite Q4. intros K. clear - K H1. Z.div_mod_to_equations; lia. }
  rewrite <- P1, <- RR.
  destruct ((d =? 0) && negb (b =? rbp) && negb (b =? r13)) eqn:E; [|destruct (is_i8 d) eqn:E8];
    cbn [sib_disp0 sib_disp8 sib_disp32 sib with_disp modrm o_bytes app];
    (apply modrm_first; [lia | cbv; split; [discriminate|reflexivity] | lia |]);
    change (low_bits kSIB =? 4) with true; cbn iota; (apply sib_right; try assumption; try lia).
  - replace ((low_bits b =? 5) && (0 =? 0)) with false by lia. cbn [displaced Z.eqb]. replace d with 0 by lia. reflexivity.
  - replace ((low_bits b =? 5) && (1 =? 0)) with false by lia. apply displaced8, E8.
  - replace ((low_bits b =? 5) && (2 =? 0)) with false by lia. apply displaced32, H4.
Qed.
Lemma modrm_right : forall v o x t, ok_rm x = true -> ok_op o = true ->
  rexR v = rex_bit_for_reg o -> rexX v = xbit x -> rexB v = bbit x ->
  get_modrm v (emit_modrm o x ++ t) = Some ((opnum o, opreg_bits o, at_rm x), t).
Proof.
  intros v o x t OX OO RR RX RB. destruct (op_parts o OO) as (P1 & P2 & P3).
  destruct x as [r|a].
  - cbn [ok_rm bbit] in *. destruct (reg_parts r OX) as (Q1 & Q2 & Q3 & Q4).
    cbn [emit_modrm app at_rm]. rewrite fields'' by lia. unfold get_modrm.
    destruct (fields 3 (opreg_bits o) (low_bits r)) as (E1 & E2 & E3 & _); try lia. cbv zeta in *. rewrite E1, E2, E3, RB, Q1, RR, P1.
    reflexivity.
  - destruct a as [r d|b s d|b i s d|w]; cbn [ok_rm ok_addr xbit bbit at_rm names] in *; bsplit.
    + destruct ((r =? rsp) || (r =? r12)) eqn:S.
      * unfold emit_modrm. cbn [operand_of]. rewrite S.
        change None with (indexed kNoIndex 0). apply sib_case; try assumption; try reflexivity; try lia.
        replace (negb (r =? rbp)) with true by (unfold rsp, r12, rbp in *; lia).
        replace (negb (r =? r13)) with true by (unfold rsp, r12, r13 in *; lia).
        rewrite !Bool.andb_true_r. reflexivity.
      * apply plain_right; try assumption; lia.
    + change None with (indexed kNoIndex s). apply sib_case; try assumption; try reflexivity; lia.
    + replace (Some (i, 2 ^ s)) with (indexed i s) by (unfold indexed; replace (i =? 4) with false by lia; reflexivity).
      apply sib_case; try assumption; try reflexivity; lia.
    + unfold emit_modrm. cbn [operand_of with_disp sib modrm o_bytes app]. rewrite <- P1, <- RR.
      apply modrm_first; [lia | cbv; split; [discriminate|reflexivity] | lia |].
      change (low_bits kSIB =? 4) with true. cbn iota. apply sib_right; try assumption; try lia; try reflexivity.
      change ((low_bits rbp =? 5) && (0 =? 0)) with true. cbn iota. rewrite get32_i32 by assumption. reflexivity.
Qed.

(* ---- Prefixes ---- *)
Definition opt (b : Z) : option Z := if b =? 0 then None else Some b.
Lemma rex_opt : forall b, rex_of (opt b) = b.
Proof. intros b. unfold opt. destruct (b =? 0) eqn:E; [cbn; lia | reflexivity]. Qed.
Definition plain (op : Z) : bool := negb ((64 <=? op) && (op <? 80)) && negb (op =? 102) && negb (op =? 243).
Definition right_bits (v w : Z) (o : opreg) (x : rm) : Prop :=
  rexR v = rex_bit_for_reg o /\ rexX v = xbit x /\ rexB v = bbit x /\ width v = w.
Lemma both_bits : forall o x, ok_rm x = true -> ok_op o = true ->
  Z.lor 64 (both o x) = 64 + both o x /\ Z.lor 72 (both o x) = 64 + (8 + both o x) /\ 0 <= both o x < 8
  /\ right_bits (both o x) 32 o x /\ right_bits (8 + both o x) 64 o x.
Proof.
  intros o x OX OO. destruct (rm_bits x OX) as (E & X1 & X2). destruct (op_parts o OO) as (_ & _ & P). unfold both. rewrite E.
  destruct (rex_fields (rex_bit_for_reg o) (xbit x) (bbit x) P X1 X2) as (A & B & C & D1 & D2 & D3 & D4 & D5 & D6 & D7 & D8).
  cbv zeta in *. unfold right_bits. repeat split; try assumption; lia.
Qed.
Lemma decode_64 : forall o x l, ok_rm x = true -> ok_op o = true ->
  decode (emit_rex_64 (both o x) ++ l) = decode_op NoPrefix (Some (8 + both o x)) l.
Proof.
  intros o x l OX OO. destruct (both_bits o x OX OO) as (_ & E & R & _). unfold emit_rex_64. rewrite E. cbn [app].
  unfold decode, decode_rex. replace (64 + (8 + both o x) =? 102) with false by lia. replace (64 + (8 + both o x) =? 243) with false by lia.
  replace ((64 <=? 64 + (8 + both o x)) && (64 + (8 + both o x) <? 80)) with true by lia.
  replace (64 + (8 + both o x) - 64) with (8 + both o x) by lia. reflexivity.
Qed.
Lemma decode_rex_maybe : forall pf b op l, 0 <= b < 8 -> Z.lor 64 b = 64 + b -> (64 <=? op) && (op <? 80) = false ->
  decode_rex pf (maybe_emit_rex b ++ op :: l) = decode_op pf (opt b) (op :: l).
Proof.
  intros pf b op l B E P. unfold maybe_emit_rex, opt. destruct (b =? 0) eqn:Z0; cbn [app].
  - unfold decode_rex. rewrite P. reflexivity.
  - rewrite E. unfold decode_rex. replace ((64 <=? 64 + b) && (64 + b <? 80)) with true by lia.
    replace (64 + b - 64) with b by lia. reflexivity.
Qed.
Lemma decode_maybe : forall b op l, 0 <= b < 8 -> Z.lor 64 b = 64 + b -> plain op = true ->
  decode (maybe_emit_rex b ++ op :: l) = decode_op NoPrefix (opt b) (op :: l).
Proof.
  intros b op l B E P. unfold plain in P. rewrite <- decode_rex_maybe by (assumption || lia).
  unfold maybe_emit_rex. destruct (b =? 0) eqn:Z0; cbn [app]; unfold decode.
  - replace (op =? 102) with false by lia. replace (op =? 243) with false by lia. reflexivity.
  - rewrite E. replace (64 + b =? 102) with false by lia. replace (64 + b =? 243) with false by lia. reflexivity.
Qed.

(* ---- Forms with a ModR/M byte ---- *)
Definition finish (i : option mi) (t : list Z) : option (mi * list Z) := match i with Some i => Some (i, t) | None => None end.
Lemma run_rm : forall rex w o x g t, ok_rm x = true -> ok_op o = true -> right_bits (rex_of rex) w o x ->
  run_form rex (FRm g) (emit_modrm o x ++ t) = finish (g rex w (opnum o) (opreg_bits o) (at_rm x)) t.
Proof.
  intros rex w o x g t OX OO (A & B & C & D). unfold run_form. rewrite (modrm_right _ o x t OX OO A B C), D. reflexivity.
Qed.
Lemma run_rm8 : forall rex w o x g v t, ok_rm x = true -> ok_op o = true -> right_bits (rex_of rex) w o x -> is_i8 v = true ->
  run_form rex (FRmI8 g) ((emit_modrm o x ++ [byte v]) ++ t) = finish (g rex w (opnum o) (opreg_bits o) (at_rm x) v) t.
Proof.
  intros rex w o x g v t OX OO (A & B & C & D) V. unfold run_form. rewrite <- app_assoc.
  rewrite (modrm_right _ o x _ OX OO A B C), D. cbn [app]. rewrite get8_byte by exact V. reflexivity.
Qed.
Lemma run_rm32 : forall rex w o x g v t, ok_rm x = true -> ok_op o = true -> right_bits (rex_of rex) w o x -> i32 v = true ->
  run_form rex (FRmI32 g) ((emit_modrm o x ++ le32 v) ++ t) = finish (g rex w (opnum o) (opreg_bits o) (at_rm x) v) t.
Proof.
  intros rex w o x g v t OX OO (A & B & C & D) V. unfold run_form. rewrite <- app_assoc.
  rewrite (modrm_right _ o x _ OX OO A B C), D. rewrite get32_i32 by exact V. reflexivity.
Qed.
Lemma first_field : forall o x t, ok_rm x = true -> ok_op o = true ->
  match emit_modrm o x ++ t with m :: _ => m / 8 mod 8 | [] => 0 end = opreg_bits o.
Proof.
  intros o x t OX OO. destruct (both_bits o x OX OO) as (_ & _ & _ & (A & B & C & _) & _).
  assert (G := modrm_right _ o x t OX OO A B C). destruct (emit_modrm o x ++ t) as [|m k]; [discriminate G|].
  unfold get_modrm in G.
  destruct (if m / 64 =? 3 then _ else _) as [[p k']|]; cbn [onto] in G; [|discriminate G]. congruence.
Qed.
Definition one_byte (op : Z) : bool := negb (op =? 15) && negb ((184 <=? op) && (op <? 192)).
Lemma op_one : forall rex op o x k f, ok_rm x = true -> ok_op o = true -> one_byte op = true ->
  form1 NoPrefix op (opreg_bits o) = Some f ->
  decode_op NoPrefix rex (op :: emit_modrm o x ++ k) = run_form rex f (emit_modrm o x ++ k).
Proof.
  intros rex op o x k f OX OO P F. unfold one_byte in P. unfold decode_op. rewrite first_field by assumption. rewrite F.
  replace (op =? 15) with false by lia. replace ((184 <=? op) && (op <? 192) && true) with false by lia. reflexivity.
Qed.
Lemma op_two : forall pf rex op k f, negb (op =? 58) = true -> form2 pf op = Some f ->
  decode_op pf rex (15 :: op :: k) = run_form rex f k.
Proof.
  intros pf rex op k f P F. unfold decode_op. cbn [Z.eqb Pos.eqb]. replace (op =? 58) with false by lia. rewrite F. reflexivity.
Qed.
(* The two sizes at once. *)
Lemma at64 : forall op o x k f, ok_rm x = true -> ok_op o = true -> one_byte op = true ->
  form1 NoPrefix op (opreg_bits o) = Some f ->
  decode ((emit_rex_64 (both o x) ++ op :: emit_modrm o x) ++ k) = run_form (Some (8 + both o x)) f (emit_modrm o x ++ k).
Proof. intros. rewrite <- app_assoc. rewrite decode_64 by assumption. cbn [app]. apply op_one; assumption. Qed.
Lemma at32 : forall op o x k f, ok_rm x = true -> ok_op o = true -> one_byte op = true -> plain op = true ->
  form1 NoPrefix op (opreg_bits o) = Some f ->
  decode ((maybe_emit_rex (both o x) ++ op :: emit_modrm o x) ++ k) = run_form (opt (both o x)) f (emit_modrm o x ++ k).
Proof.
  intros op o x k f OX OO P Q F. destruct (both_bits o x OX OO) as (A & _ & B & _). rewrite <- app_assoc.
  cbn [app]. rewrite decode_maybe by assumption. apply op_one; assumption.
Qed.
Section Sized.
  Variable w64 : bool.
  Definition em1 := if w64 then emit1_64 else emit1.
  Definition rexv (o : opreg) (x : rm) := if w64 then Some (8 + both o x) else opt (both o x).
  Lemma rexv_right : forall o x, ok_rm x = true -> ok_op o = true -> right_bits (rex_of (rexv o x)) (bits w64) o x.
  Proof.
    intros o x OX OO. destruct (both_bits o x OX OO) as (_ & _ & _ & A & B). unfold rexv, bits. destruct w64; [exact B|].
    rewrite rex_opt. exact A.
  Qed.
  Lemma at_sized : forall op o x k f, ok_rm x = true -> ok_op o = true -> one_byte op = true -> plain op = true ->
    form1 NoPrefix op (opreg_bits o) = Some f ->
    decode (em1 op o x ++ k) = run_form (rexv o x) f (emit_modrm o x ++ k).
  Proof. intros. unfold em1, rexv. destruct w64; [apply at64 | apply at32]; assumption. Qed.
  Lemma rm_ : forall op o x t g, ok_rm x = true -> ok_op o = true -> one_byte op = true -> plain op = true ->
    form1 NoPrefix op (opreg_bits o) = Some (FRm g) ->
    decode (em1 op o x ++ t) = finish (g (rexv o x) (bits w64) (opnum o) (opreg_bits o) (at_rm x)) t.
  Proof. intros. rewrite (at_sized _ _ _ _ _ H H0 H1 H2 H3). apply run_rm; auto using rexv_right. Qed.
  Lemma rm_8 : forall op o x t g v, ok_rm x = true -> ok_op o = true -> one_byte op = true -> plain op = true -> is_i8 v = true ->
    form1 NoPrefix op (opreg_bits o) = Some (FRmI8 g) ->
    decode ((em1 op o x ++ [byte v]) ++ t) = finish (g (rexv o x) (bits w64) (opnum o) (opreg_bits o) (at_rm x) v) t.
  Proof.
    intros. rewrite <- app_assoc. rewrite (at_sized _ _ _ _ _ H H0 H1 H2 H4), app_assoc. apply run_rm8; auto using rexv_right.
  Qed.
  Lemma rm_32 : forall op o x t g v, ok_rm x = true -> ok_op o = true -> one_byte op = true -> plain op = true -> i32 v = true ->
    form1 NoPrefix op (opreg_bits o) = Some (FRmI32 g) ->
    decode ((em1 op o x ++ le32 v) ++ t) = finish (g (rexv o x) (bits w64) (opnum o) (opreg_bits o) (at_rm x) v) t.
  Proof.
    intros. rewrite <- app_assoc. rewrite (at_sized _ _ _ _ _ H H0 H1 H2 H4), app_assoc. apply run_rm32; auto using rexv_right.
  Qed.
  (* 0F xx. *)
  Definition em2 := if w64 then emit2_64 else emit2.
  Lemma rm_two : forall op o x t g, ok_rm x = true -> ok_op o = true -> negb (op =? 58) = true -> form2 NoPrefix op = Some (FRm g) ->
    decode (em2 15 op o x ++ t) = finish (g (rexv o x) (bits w64) (opnum o) (opreg_bits o) (at_rm x)) t.
  Proof.
    intros op o x t g OX OO P F. destruct (both_bits o x OX OO) as (A & _ & B & _).
    transitivity (run_form (rexv o x) (FRm g) (emit_modrm o x ++ t)); [|apply run_rm; auto using rexv_right].
    unfold em2, rexv. destruct w64.
    - unfold emit2_64. rewrite <- app_assoc, decode_64 by assumption. cbn [app]. apply op_two; assumption.
    - unfold emit2. rewrite <- app_assoc. cbn [app]. rewrite decode_maybe by (assumption || reflexivity). apply op_two; assumption.
  Qed.
End Sized.

(* ---- SSE: the REX bit of reg is not written ---- *)
Lemma both_low : forall o x, rex_bit_for_reg o = 0 -> rex_bits_for_rm x = both o x.
Proof. intros o x H. unfold both. rewrite H. reflexivity. Qed.
Definition prefix_byte (pf : prefix) : Z := match pf with P66 => 102 | _ => 243 end.
Definition legacy (pf : prefix) : bool := match pf with NoPrefix => false | _ => true end.
Lemma sse_ : forall pf op o x t g, legacy pf = true -> ok_rm x = true -> ok_op o = true -> rex_bit_for_reg o = 0 ->
  negb (op =? 58) = true -> form2 pf op = Some (FRm g) ->
  decode (emit3_sse (prefix_byte pf) 15 op o x ++ t) = finish (g (opt (both o x)) 32 (opnum o) (opreg_bits o) (at_rm x)) t.
Proof.
  intros pf op o x t g L OX OO Z0 P F. destruct (both_bits o x OX OO) as (A & _ & B & C & _).
  unfold emit3_sse. rewrite (both_low o x Z0). cbn [app].
  transitivity (decode_rex pf (maybe_emit_rex (both o x) ++ 15 :: op :: emit_modrm o x ++ t)).
  - rewrite <- app_assoc. cbn [app]. destruct pf; [discriminate L | reflexivity | reflexivity].
  - rewrite decode_rex_maybe by (assumption || reflexivity). rewrite (op_two _ _ _ _ _ P F).
    apply run_rm; try assumption. rewrite rex_opt. exact C.
Qed.
Lemma sse3_ : forall o x t v, ok_rm x = true -> ok_op o = true -> rex_bit_for_reg o = 0 -> is_i8 v = true ->
  decode ((emit4_sse 102 15 58 10 o x ++ [byte v]) ++ t) = Some (IRoundss (opnum o) (at_rm x) v, t).
Proof.
  intros o x t v OX OO Z0 V. destruct (both_bits o x OX OO) as (A & _ & B & C & _).
  unfold emit4_sse. rewrite (both_low o x Z0). cbn [app].
  transitivity (decode_rex P66 (maybe_emit_rex (both o x) ++ 15 :: 58 :: 10 :: (emit_modrm o x ++ [byte v]) ++ t)).
  - repeat (rewrite <- app_assoc; cbn [app]). reflexivity.
  - rewrite decode_rex_maybe by (assumption || reflexivity).
    transitivity (run_form (opt (both o x)) (FRmI8 (fun _ _ r _ p v => Some (IRoundss r p v))) ((emit_modrm o x ++ [byte v]) ++ t)).
    + reflexivity.
    + rewrite (run_rm8 _ 32) by (try assumption; rewrite rex_opt; exact C). reflexivity.
Qed.

(* ---- Forms without ModR/M ---- *)
Lemma opc : forall base r k, reg r = true -> (base =? 80) || (base =? 88) || (base =? 184) = true ->
  decode (emit1_maybe_rex (base + low_bits r) r ++ k) = decode_op NoPrefix (opt (rex_bit r)) (base + low_bits r :: k).
Proof.
  intros base r k H B. destruct (reg_parts r H) as (_ & Q2 & Q3 & _). unfold emit1_maybe_rex.
  replace (byte (base + low_bits r)) with (base + low_bits r) by (unfold byte; symmetry; apply Z.mod_small; lia).
  rewrite <- app_assoc. cbn [app]. apply decode_maybe; [lia | | unfold plain; lia].
  assert (K : rex_bit r = 0 \/ rex_bit r = 1) by lia. destruct K as [-> | ->]; reflexivity.
Qed.
Lemma opc_bits : forall r, reg r = true ->
  width (rex_of (opt (rex_bit r))) = 32 /\ 8 * rexB (rex_of (opt (rex_bit r))) + low_bits r = r.
Proof.
  intros r H. destruct (reg_parts r H) as (Q1 & _ & Q3 & _). assert (K : rex_bit r = 0 \/ rex_bit r = 1) by lia.
  rewrite rex_opt. destruct K as [E | E]; rewrite E in *; split; try reflexivity.
  - change (rexB 0) with 0. lia.
  - change (rexB 1) with 1. lia.
Qed.
Lemma mov_imm32 : forall d v t, reg d = true ->
  decode ((emit1_maybe_rex (184 + low_bits d) d ++ le32 v) ++ t) = Some (IMovI 32 (PReg d) (signed two32 (v mod two32)), t).
Proof.
  intros d v t H. rewrite <- app_assoc, opc by (assumption || reflexivity).
  destruct (opc_bits d H) as (W & E). destruct (reg_parts d H) as (_ & Q2 & _).
  unfold decode_op. replace (184 + low_bits d =? 15) with false by lia.
  replace ((184 <=? 184 + low_bits d) && (184 + low_bits d <? 192) && true) with true by lia.
  rewrite W. change (form_mov 32 (184 + low_bits d)) with (FI32 (fun w b v => IMovI w (PReg (184 + low_bits d - 184 + b)) v)).
  unfold run_form. rewrite get32_le, W. cbn [onto]. do 4 f_equal. lia.
Qed.
Lemma mov_imm64 : forall d v t, reg d = true -> i64 v = true ->
  decode ((emit1_64_rex (184 + low_bits d) d ++ le64 v) ++ t) = Some (IMovI 64 (PReg d) v, t).
Proof.
  intros d v t H V. destruct (both_bits (OExt 0) (R d) H eq_refl) as (_ & B & C & _ & (_ & _ & D & W)). destruct (reg_parts d H) as (Q1 & Q2 & Q3 & _).
  change (both (OExt 0) (R d)) with (rex_bit d) in *. cbn [bbit] in D.
  unfold emit1_64_rex. change (emit_rex_64 (rex_bit d)) with (emit_rex_64 (both (OExt 0) (R d))).
  rewrite <- !app_assoc, decode_64 by (assumption || reflexivity). change (both (OExt 0) (R d)) with (rex_bit d). cbn [app].
  replace (byte (184 + low_bits d)) with (184 + low_bits d) by (unfold byte; symmetry; apply Z.mod_small; lia).
  unfold decode_op. replace (184 + low_bits d =? 15) with false by lia.
  replace ((184 <=? 184 + low_bits d) && (184 + low_bits d <? 192) && true) with true by lia.
  cbn [rex_of]. rewrite W. change (form_mov 64 (184 + low_bits d)) with (FI64 (fun w b v => IMovI w (PReg (184 + low_bits d - 184 + b)) v)).
  unfold run_form. cbn [rex_of]. rewrite get64_i64 by exact V. rewrite W, D. cbn [onto]. do 4 f_equal. lia.
Qed.
Lemma reg_cases : forall r, reg r = true -> In r [0;1;2;3;4;5;6;7;8;9;10;11;12;13;14;15].
Proof. intros r H. apply (in_upto 16). unfold reg in H. lia. Qed.
Ltac each_reg r H := let K := fresh in assert (K := reg_cases r H); cbn [In] in K;
  repeat (destruct K as [<- | K]); [.. | destruct K].
Lemma low_rex : forall r, reg r = true -> low r = true -> rex_bit r = 0.
Proof. intros r H L. each_reg r H; try reflexivity; discriminate L. Qed.
Lemma acc32 : forall op v t f, one_byte op = true -> plain op = true -> i32 v = true -> (forall n, form1 NoPrefix op n = Some (FI32 f)) ->
  decode (op :: le32 v ++ t) = Some (f 32 0 v, t).
Proof.
  intros op v t f P Q V F. unfold one_byte, plain in *. unfold decode. replace (op =? 102) with false by lia. replace (op =? 243) with false by lia.
  unfold decode_rex. replace ((64 <=? op) && (op <? 80)) with false by lia. unfold decode_op.
  replace (op =? 15) with false by lia. replace ((184 <=? op) && (op <? 192) && true) with false by lia. rewrite F.
  unfold run_form. rewrite get32_i32 by exact V. reflexivity.
Qed.
Lemma alu_imm : forall (w64 : bool) o x v t, alu_op o = true -> ok_rm x = true -> i32 v = true ->
  (x = R 0 -> w64 = true -> is_i8 v = true) ->
  decode ((if w64 then alu_imm_64 else alu_imm_32) o v x ++ t) = Some (IAluI (bits w64) o (at_rm x) v, t).
Proof.
  intros w64 o x v t O X V S.
  assert (A : is_i8 v = true -> decode ((em1 w64 131 (OExt o) x ++ [byte v]) ++ t) = Some (IAluI (bits w64) o (at_rm x) v, t)).
  { intros I8. etransitivity; [eapply rm_8; try eassumption; try reflexivity|]; try reflexivity. }
  assert (B : decode ((em1 w64 129 (OExt o) x ++ le32 v) ++ t) = Some (IAluI (bits w64) o (at_rm x) v, t)).
  { etransitivity; [eapply rm_32; try eassumption; try reflexivity|]; try reflexivity. }
  assert (C : w64 = false -> decode (([byte (Z.lor 5 (Z.shiftl o 3))] ++ le32 v) ++ t) = Some (IAluI (bits w64) o (PReg 0) v, t)).
  { intros ->. cbn [app]. unfold alu_op in O. assert (K := in_upto 8 o). cbn [upto seq map Z.of_nat Pos.of_succ_nat Pos.succ In] in K.
    destruct K as [<- | [<- | [<- | [<- | [<- | [<- | [<- | [<- | []]]]]]]]]; [lia | ..];
    match goal with |- decode (byte ?e :: _) = _ => let r := eval vm_compute in (byte e) in change (byte e) with r end;
    (etransitivity; [eapply acc32; [reflexivity | reflexivity | exact V | intros n; reflexivity] | reflexivity]). }
  unfold em1 in A, B.
  destruct w64; unfold alu_imm_64, alu_imm_32; destruct (is_i8 v) eqn:E; try (apply A; reflexivity).
  - destruct x as [[|p|p]|a]; try exact B. discriminate (S eq_refl eq_refl).
  - destruct x as [[|p|p]|a]; try exact B. apply C; reflexivity.
Qed.

(* ---- Every method ---- *)
Definition decoded (c : call) : Prop := forall t, decode (asm c ++ t) = Some (meant c, t).
Ltac rm1 := cbn [asm meant bits]; match goal with
  | |- decode (emit1_64 ?op ?o ?x ++ ?t) = _ => change (emit1_64 op o x) with (em1 true op o x)
  | |- decode (emit1 ?op ?o ?x ++ ?t) = _ => change (emit1 op o x) with (em1 false op o x)
  | |- decode ((if ?w then emit1_64 else emit1) ?op ?o ?x ++ ?t) = _ =>
    change ((if w then emit1_64 else emit1) op o x) with (em1 w op o x) end;
  etransitivity; [eapply rm_; try eassumption; try reflexivity|]; try reflexivity.
Ltac byte_rex := intros;
  repeat match goal with H : byte_reg _ = true |- _ => unfold byte_reg in H end;
  unfold byte_place; repeat match goal with |- context [match ?x with _ => _ end] => destruct x eqn:? end;
  try reflexivity; try lia.
Lemma byte_ok : forall rex x, byte_reg x = true -> ok_rm x = true -> byte_place rex (at_rm x) = at_rm x.
Proof.
  intros rex [r|a] H O; cbn [at_rm byte_reg ok_rm] in *.
  - unfold byte_place. destruct rex; [reflexivity|]. replace ((4 <=? r) && (r <=? 7)) with false by lia. reflexivity.
  - destruct a; reflexivity.
Qed.
Lemma shift_imm : forall (w64 : bool) o x n t, is_shift o = true -> ok_rm x = true -> u8 n = true ->
  decode ((if w64 then shift_imm_64 else shift_imm_32) x o n ++ t) = Some (IShift (bits w64) o (at_rm x) (Some (n mod bits w64)), t).
Proof.
  intros w64 o x n t O X N.
  assert (OO : ok_op (OExt o) = true) by (unfold is_shift in O; cbn [ok_op]; unfold alu_op; lia).
  assert (A : decode (em1 w64 209 (OExt o) x ++ t) = Some (IShift (bits w64) o (at_rm x) (Some 1), t)).
  { etransitivity; [eapply rm_; try eassumption; try reflexivity|]; try reflexivity. cbn [opreg_bits finish]. rewrite O. reflexivity. }
  assert (B : forall v, is_i8 v = true ->
    decode ((em1 w64 193 (OExt o) x ++ [byte v]) ++ t) = Some (IShift (bits w64) o (at_rm x) (Some (v mod bits w64)), t)).
  { intros v V. etransitivity; [eapply rm_8; try eassumption; try reflexivity|]; try reflexivity. cbn [opreg_bits finish]. rewrite O. reflexivity. }
  assert (K : forall m, 0 <= m < 128 -> is_i8 m = true /\ byte m = m).
  { intros m M. unfold is_i8, byte. split; [lia | apply Z.mod_small; lia]. }
  assert (L63 : Z.land n 63 = n mod 64) by (apply (Z.land_ones n 6); lia).
  assert (L31 : Z.land n 31 = n mod 32) by (apply (Z.land_ones n 5); lia).
  unfold em1 in *.
  destruct w64; unfold shift_imm_64, shift_imm_32, bits in *; destruct (n =? 1) eqn:E.
  - replace n with 1 by lia. exact A.
  - rewrite L63. assert (M := Z.mod_pos_bound n 64). destruct (K (n mod 64)) as (I8 & BB); [lia|]. rewrite <- BB at 1.
    rewrite (B _ I8). rewrite Z.mod_mod by lia. reflexivity.
  - replace n with 1 by lia. exact A.
  - rewrite L31. assert (M := Z.mod_pos_bound n 32). destruct (K (n mod 32)) as (I8 & BB); [lia|]. rewrite <- BB at 1.
    rewrite (B _ I8). rewrite Z.mod_mod by lia. reflexivity.
Qed.
Lemma xchg_right : forall d s, takes (Xchgq d s) = true -> sound (Xchgq d s) = true -> decoded (Xchgq d s).
Proof.
  intros d s T S t. cbn [takes sound] in *. bsplit. cbn [asm meant].
  destruct (s =? 0) eqn:E; change rax with 0; rewrite E.
  - unfold low in S. replace s with 0 by lia. each_reg d H; try discriminate S; reflexivity.
  - destruct (d =? 0) eqn:E'; [|].
    + unfold low in S. replace d with 0 by lia. each_reg s H0; try discriminate S; reflexivity.
    + change (emit1_64 135 (OExt s) (R d)) with (em1 true 135 (OExt s) (R d)).
      assert (OO : ok_op (OExt s) = true) by (unfold low in S; unfold reg in H0; cbn [ok_op]; unfold alu_op; lia).
      etransitivity; [eapply rm_; try eassumption; try reflexivity|]; try reflexivity.
Qed.
Lemma alu_right : forall w o x s, takes (Alu w o x s) = true -> decoded (Alu w o x s).
Proof.
  intros w o x s T t. cbn [takes] in T. bsplit. unfold alu_op in *. assert (K := in_upto 8 o). cbn [upto seq map Z.of_nat Pos.of_succ_nat Pos.succ In] in K.
  cbn [asm meant]. change ((if w then emit1_64 else emit1) (8 * o + 1) (OReg s) x) with (em1 w (8 * o + 1) (OReg s) x).
  destruct K as [<- | [<- | [<- | [<- | [<- | [<- | [<- | [<- | []]]]]]]]]; [lia | ..];
    (etransitivity; [eapply rm_; [assumption | assumption | reflexivity | reflexivity | reflexivity] | reflexivity]).
Qed.
Lemma push_pop : forall r t, reg r = true -> decode (asm (Push r) ++ t) = Some (IPush r, t) /\ decode (asm (Pop r) ++ t) = Some (IPop r, t).
Proof. intros r t H. each_reg r H; split; reflexivity. Qed.
Lemma movq_i : forall d v, takes (Movq_i d v) = true -> decoded (Movq_i d v).
Proof.
  intros d v T t. cbn [takes] in T. bsplit. cbn [asm meant]. unfold mov_const.
  destruct ((0 <=? v) && (v <=? 4294967295)) eqn:E.
  - rewrite mov_imm32 by assumption. replace (v mod two32) with v by (symmetry; apply Z.mod_small; unfold two32; lia). reflexivity.
  - destruct ((- two31 <=? v) && (v <=? two31 - 1)) eqn:E'.
    + change (emit1_64 199 (OExt 0) (R d)) with (em1 true 199 (OExt 0) (R d)).
      assert (V : i32 v = true) by (unfold i32; lia).
      etransitivity; [eapply rm_32; try eassumption; try reflexivity|]; try reflexivity.
    + apply mov_imm64; assumption.
Qed.
Lemma rounds : forall m, (m =? 1) || (m =? 2) = true -> is_i8 m = true /\ byte m = m.
Proof. intros m H. assert (K : m = 1 \/ m = 2) by lia. destruct K as [-> | ->]; split; reflexivity. Qed.
Ltac two := match goal with
  | |- decode (emit2_64 15 ?op ?o ?x ++ ?t) = _ => change (emit2_64 15 op o x) with (em2 true 15 op o x)
  | |- decode (emit2 15 ?op ?o ?x ++ ?t) = _ => change (emit2 15 op o x) with (em2 false 15 op o x)
  | |- decode ((if ?w then emit2_64 else emit2) 15 ?op ?o ?x ++ ?t) = _ =>
    change ((if w then emit2_64 else emit2) 15 op o x) with (em2 w 15 op o x) end.
Ltac sse pf := match goal with |- decode (emit3_sse ?p 15 ?op ?o ?x ++ ?t) = _ =>
  change (emit3_sse p 15 op o x) with (emit3_sse (prefix_byte pf) 15 op o x) end;
  etransitivity; [eapply sse_; try eassumption; try reflexivity; try (apply low_rex; assumption)|]; try reflexivity.
Theorem encoded : forall c, takes c = true -> sound c = true -> decoded c.
Proof.
  intros c T S. destruct c; try (apply xchg_right; assumption); try (apply alu_right; assumption); try (apply movq_i; assumption);
    intros t; cbn [takes sound] in *; bsplit; try discriminate S; try reflexivity; try solve [rm1].
  - cbn [asm meant]. rewrite mov_imm32 by assumption. rewrite signed32 by assumption. reflexivity.
  - cbn [asm meant]. change (emit1 199 (OExt 0) (M a)) with (em1 false 199 (OExt 0) (M a)). etransitivity; [eapply rm_32; try eassumption; try reflexivity|]; try reflexivity.
  - rm1. cbn [finish opnum]. change (PReg s) with (at_rm (R s)). rewrite !byte_ok by assumption. reflexivity.
  - cbn [asm meant]. two. etransitivity; [eapply rm_two; try eassumption; try reflexivity|]; try reflexivity.
    cbn [finish opnum]. rewrite byte_ok by assumption. reflexivity.
  - rm1. destruct a; reflexivity.
  - cbn [asm meant]. apply alu_imm; try assumption. intros -> ->. cbn [sound] in S. change (negb (0 =? 0)) with false in S. exact S.
  - cbn [asm meant]. unfold alu_imm_32_op. destruct (is_i8 imm) eqn:E.
    + change (emit1 131 (OExt 4) (R d)) with (em1 false 131 (OExt 4) (R d)).
      etransitivity; [eapply rm_8; try eassumption; reflexivity | reflexivity].
    + change (emit1 129 (OExt 4) (R d)) with (em1 false 129 (OExt 4) (R d)).
      etransitivity; [eapply rm_32; try eassumption; reflexivity | reflexivity].
  - cbn [asm meant].
    assert (A : decode ((emit1_64 247 (OExt 0) x ++ le32 imm) ++ t) = Some (ITestI 64 (at_rm x) imm, t)).
    { change (emit1_64 247 (OExt 0) x) with (em1 true 247 (OExt 0) x).
      etransitivity; [eapply rm_32; try eassumption; reflexivity | reflexivity]. }
    destruct x as [[|p|p]|a]; try exact A.
  - cbn [asm meant]. apply shift_imm; assumption.
  - assert (OO : ok_op (OExt o) = true) by (unfold is_shift in *; cbn [ok_op]; unfold alu_op; lia).
    rm1. cbn [opreg_bits finish]. unfold finish. match goal with H : is_shift o = true |- _ => rewrite H end. reflexivity.
  - cbn [asm meant]. two. etransitivity; [eapply rm_two; try eassumption; reflexivity | reflexivity].
  - cbn [asm meant]. destruct (is_i8 imm) eqn:E.
    + change (emit1 107 (OReg d) (R s)) with (em1 false 107 (OReg d) (R s)).
      etransitivity; [eapply rm_8; try eassumption; reflexivity | reflexivity].
    + change (emit1 105 (OReg d) (R s)) with (em1 false 105 (OReg d) (R s)).
      etransitivity; [eapply rm_32; try eassumption; reflexivity | reflexivity].
  - cbn [asm meant]. assert (CC : reg cc = true) by (unfold reg; lia).
    assert (A : decode (emit2 15 (144 + cc) (OExt 0) x ++ t) = Some (ISet cc (byte_place (opt (both (OExt 0) x)) (at_rm x)), t)).
    { two. clear S. each_reg cc CC; (etransitivity; [eapply rm_two; try eassumption; reflexivity | reflexivity]). }
    rewrite A, byte_ok by assumption. reflexivity.
  - apply push_pop; assumption.
  - cbn [asm meant]. destruct (is_i8 imm) eqn:E.
    + transitivity (onto (get8 (byte imm :: t)) IPushI); [reflexivity|]. rewrite get8_byte by exact E. reflexivity.
    + transitivity (decode (104 :: le32 imm ++ t)); [reflexivity|].
      etransitivity; [eapply acc32; try eassumption; reflexivity | reflexivity].
  - apply push_pop; assumption.
  - cbn [asm meant]. sse P66.
  - cbn [asm meant]. assert (d = s) by lia. subst s. sse P66.
  - cbn [asm meant]. assert (O : o = 88 \/ o = 89 \/ o = 92 \/ o = 94) by lia.
    destruct O as [-> | [-> | [-> | ->]]]; sse PF3.
  - cbn [asm meant]. assert (d = s) by lia. subst s. two. etransitivity; [eapply rm_two; try eassumption; reflexivity | reflexivity].
  - destruct l as [l|a]; [|discriminate S]. assert (l = r) by lia. subst l. cbn [asm meant]. two.
    etransitivity; [eapply rm_two; try eassumption; reflexivity | reflexivity].
  - cbn [asm meant]. sse PF3.
  - cbn [asm meant]. sse PF3.
  - cbn [asm meant]. sse PF3.
  - cbn [asm meant]. destruct (rounds mode) as (I8 & B); [assumption|]. rewrite <- B at 1.
    rewrite sse3_ by (try assumption; apply low_rex; assumption). reflexivity.
  - cbn [asm meant]. change rax with 0 in *. destruct (s =? 0) eqn:E.
    + transitivity (run_form (Some 8) (FI64 (fun w _ v => IStoreAbs w v)) (le64 value ++ t)); [reflexivity|].
      unfold run_form. rewrite get64_i64 by assumption. reflexivity.
    + change (emit1_64 137 (OReg s) (M (AAbs value))) with (em1 true 137 (OReg s) (M (AAbs value))).
      etransitivity; [eapply rm_; try eassumption; reflexivity | reflexivity].
  - cbn [asm meant]. change rax with 0 in *. destruct (d =? 0) eqn:E.
    + transitivity (run_form (Some 8) (FI64 (fun w _ v => ILoadAbs w v)) (le64 value ++ t)); [reflexivity|].
      unfold run_form. rewrite get64_i64 by assumption. reflexivity.
    + change (emit1_64 139 (OReg d) (M (AAbs value))) with (em1 true 139 (OReg d) (M (AAbs value))).
      etransitivity; [eapply rm_; try eassumption; reflexivity | reflexivity].
Qed.
