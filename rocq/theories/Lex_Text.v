From Coq Require Import ZifyBool.
From Verif Require Import Base Base_Proofs Rt_Model Lex_Model Lex_Spec Lex_Proofs.
From Verif Require Small_Proofs.

Lemma range_all (f : Z -> bool) n : forallb f (map Z.of_nat (seq 0 n)) = true -> forall x, 0 <= x < Z.of_nat n -> f x = true.
Proof.
  intros H x X. rewrite forallb_forall in H. apply H. apply in_map_iff. exists (Z.to_nat x). split; [lia|]. apply in_seq. lia.
Qed.
Lemma lor_low r b n : 0 <= n -> 0 <= b < 2 ^ n -> Z.lor (Z.shiftl r n) b = r * 2 ^ n + b.
Proof. intros N B. rewrite Z.shiftl_mul_pow2 by lia. rewrite Z.lor_comm, (Small_Proofs.lor_high b n r N B). lia. Qed.
Lemma two_char a : 0 <= a < 32 -> (0xc0 + a <=? 0x7f) = false /\ (255 - (0xc0 + a) =? 0) = false /\ leftmost 8 (255 - (0xc0 + a)) = 5 /\ Z.land (0xc0 + a) (2 ^ 5 - 1) = a.
Proof.
  intros A. pose proof (range_all (fun a => (leftmost 8 (255 - (0xc0 + a)) =? 5) && (Z.land (0xc0 + a) (2 ^ 5 - 1) =? a)) 32 ltac:(vm_compute; reflexivity) a A) as H. cbv beta in H. lia.
Qed.
Lemma three_char a : 0 <= a < 16 -> (0xe0 + a <=? 0x7f) = false /\ (255 - (0xe0 + a) =? 0) = false /\ leftmost 8 (255 - (0xe0 + a)) = 4 /\ Z.land (0xe0 + a) (2 ^ 4 - 1) = a.
Proof.
  intros A. pose proof (range_all (fun a => (leftmost 8 (255 - (0xe0 + a)) =? 4) && (Z.land (0xe0 + a) (2 ^ 4 - 1) =? a)) 16 ltac:(vm_compute; reflexivity) a A) as H. cbv beta in H. lia.
Qed.
Lemma four_char a : 0 <= a < 8 -> (0xf0 + a <=? 0x7f) = false /\ (255 - (0xf0 + a) =? 0) = false /\ leftmost 8 (255 - (0xf0 + a)) = 3 /\ Z.land (0xf0 + a) (2 ^ 3 - 1) = a.
Proof.
  intros A. pose proof (range_all (fun a => (leftmost 8 (255 - (0xf0 + a)) =? 3) && (Z.land (0xf0 + a) (2 ^ 3 - 1) =? a)) 8 ltac:(vm_compute; reflexivity) a A) as H. cbv beta in H. lia.
Qed.
Lemma cont_char b : 0 <= b < 64 -> (Z.land (0x80 + b) 0xc0 =? 0x80) = true /\ Z.land (0x80 + b) 0x3f = b.
Proof.
  intros A. pose proof (range_all (fun b => (Z.land (0x80 + b) 0xc0 =? 0x80) && (Z.land (0x80 + b) 0x3f =? b)) 64 ltac:(vm_compute; reflexivity) b A) as H. cbv beta in H. lia.
Qed.

Section T.
Variable strict : bool.
Notation next := (advance_ne strict).

Lemma cont_step n r b l : 0 <= b < 64 -> 0 <= r < 2 ^ 25 -> l <> [] ->
  continuations strict (S n) r (0x80 + b :: l) = continuations strict n (r * 64 + b) l.
Proof.
  intros B R L. cbn [continuations]. rewrite peek_cons. cbn [lbind]. destruct (cont_char b B) as (E1 & E2). rewrite E1. cbn [negb].
  rewrite next by exact L. cbn [lbind]. rewrite E2, (lor_low r b 6) by lia. rewrite wrap32_id; [reflexivity|]. unfold is_i32, two31. lia.
Qed.

Lemma get_utf8 cp t rest : utf8_of cp t -> rest <> [] -> get_utf8_char strict (t ++ rest) = LGood cp rest [].
Proof.
  intros H NE. assert (N : forall x, x ++ rest <> []) by (intros x; destruct x, rest; cbn [app]; congruence).
  unfold get_utf8_char. destruct H as [a A|a b A B|a b c A B C M|a b c d A B C D M]; cbn [app].
  - rewrite next by exact NE. cbn [lbind]. replace (a <=? 127) with true by lia. reflexivity.
  - rewrite next by discriminate. cbn [lbind]. destruct (two_char a ltac:(lia)) as (-> & -> & -> & ->). cbv zeta.
    change ((5 =? 0) || (5 <? 5)) with false. cbv iota. change (Z.to_nat (6 - 5)) with 1%nat. rewrite cont_step by (try exact NE; lia). reflexivity.
  - rewrite next by discriminate. cbn [lbind]. destruct (three_char a ltac:(lia)) as (-> & -> & -> & ->). cbv zeta.
    change ((4 =? 0) || (5 <? 4)) with false. cbv iota. change (Z.to_nat (6 - 4)) with 2%nat.
    rewrite cont_step by (try discriminate; lia). rewrite cont_step by (try exact NE; lia). reflexivity.
  - rewrite next by discriminate. cbn [lbind]. destruct (four_char a ltac:(lia)) as (-> & -> & -> & ->). cbv zeta.
    change ((3 =? 0) || (5 <? 3)) with false. cbv iota. change (Z.to_nat (6 - 3)) with 3%nat.
    rewrite cont_step by (try discriminate; lia). rewrite cont_step by (try discriminate; lia). rewrite cont_step by (try exact NE; lia). reflexivity.
Qed.

Ltac Zify.zify_post_hook ::= Z.div_mod_to_equations.
Lemma to_utf8_of lenient cp : scalar cp -> exists t, to_utf8 lenient cp = Some t /\ utf8_of cp t.
Proof.
  intros (R & S). unfold to_utf8. replace (negb lenient && (55296 <=? cp) && (cp <? 57344)) with false by (destruct lenient; cbn [negb andb]; lia).
  destruct (cp <? 0x80) eqn:E1; [eexists; split; [reflexivity|]; constructor; lia|].
  destruct (cp <? 0x800) eqn:E2.
  { eexists. split; [reflexivity|]. replace cp with (cp / 64 * 64 + cp mod 64) at 1 by lia. constructor; lia. }
  destruct (cp <? 0x10000) eqn:E3.
  { eexists. split; [reflexivity|]. replace cp with ((cp / 4096 * 64 + cp / 64 mod 64) * 64 + cp mod 64) at 1 by lia. constructor; lia. }
  replace (cp <? 0x110000) with true by lia. eexists. split; [reflexivity|].
  replace cp with (((cp / 262144 * 64 + cp / 4096 mod 64) * 64 + cp / 64 mod 64) * 64 + cp mod 64) at 1 by lia. constructor; lia.
Qed.
Lemma utf8_of_to lenient cp t : scalar cp -> utf8_of cp t -> to_utf8 lenient cp = Some t.
Proof.
  intros (R & S) H. unfold to_utf8. replace (negb lenient && (55296 <=? cp) && (cp <? 57344)) with false by (destruct lenient; cbn [negb andb]; lia).
  destruct H as [a A|a b A B|a b c A B C M|a b c d A B C D M].
  - replace (a <? 0x80) with true by lia. reflexivity.
  - replace (a * 64 + b <? 0x80) with false by lia. replace (a * 64 + b <? 0x800) with true by lia.
    replace ((a * 64 + b) / 64) with a by lia. replace ((a * 64 + b) mod 64) with b by lia. reflexivity.
  - set (v := (a * 64 + b) * 64 + c) in *. replace (v <? 0x80) with false by lia. replace (v <? 0x800) with false by lia. replace (v <? 0x10000) with true by (subst v; lia).
    replace (v / 4096) with a by (subst v; lia). replace (v / 64 mod 64) with b by (subst v; lia). replace (v mod 64) with c by (subst v; lia). reflexivity.
  - set (v := ((a * 64 + b) * 64 + c) * 64 + d) in *. replace (v <? 0x80) with false by lia. replace (v <? 0x800) with false by lia. replace (v <? 0x10000) with false by lia. replace (v <? 0x110000) with true by lia.
    replace (v / 262144) with a by (subst v; lia). replace (v / 4096 mod 64) with b by (subst v; lia). replace (v / 64 mod 64) with c by (subst v; lia). replace (v mod 64) with d by (subst v; lia). reflexivity.
Qed.
Ltac Zify.zify_post_hook ::= idtac.

(* Escapes with digits. *)
Notation step base := (fun v d => v * base + d).
Lemma digits_nonneg base t ds : base <= 16 -> Forall2 (digit_char base) t ds -> Forall (fun d => 0 <= d) ds.
Proof. intros B. induction 1; constructor; auto. destruct (digit_of_spec _ _ _ B H). lia. Qed.
Lemma hex_ishex c d : digit_char 16 c d -> ishex c = true /\ digit_of c = d /\ 0 <= d < 16.
Proof. intros H. assert (B : 16 <= 16) by lia. destruct (digit_of_spec _ _ _ B H) as (E & R & _). split; [|auto]. destruct H as (_ & H). unfold ishex, is_digit. lia. Qed.
Lemma ne_app (t rest : list Z) : rest <> [] -> t ++ rest <> [].
Proof. destruct t, rest; cbn [app]; congruence. Qed.

Lemma hex_run t ds rest : Forall2 (digit_char 16) t ds -> rest <> [] -> forall n c, (length t <= n)%nat -> ((length t < n)%nat -> not_next ishex rest) ->
  hex_escape strict n c (t ++ rest) = LGood (fold_left (step 16) ds c) rest [].
Proof.
  induction 1 as [|x d t ds X F IH]; intros NE n c L NX.
  - cbn [app fold_left]. destruct n as [|n]; [reflexivity|]. destruct (NX ltac:(cbn [length]; lia)) as (y & more & -> & Y). cbn [hex_escape]. rewrite peek_cons. cbn [lbind]. now rewrite Y.
  - cbn [length] in L. destruct n as [|n]; [lia|]. cbn [app hex_escape]. rewrite peek_cons. cbn [lbind]. destruct (hex_ishex _ _ X) as (-> & -> & _).
    rewrite next by (apply ne_app; exact NE). cbn [lbind fold_left]. apply IH; [exact NE|lia|]. intros. apply NX. cbn [length]. lia.
Qed.
Lemma code_run t ds rest : Forall2 (digit_char 16) t ds -> rest <> [] -> forall c, 0 <= c -> fold_left (step 16) ds c < two31 ->
  code_escape strict (length t) c (t ++ rest) = LGood (fold_left (step 16) ds c) rest [].
Proof.
  induction 1 as [|x d t ds X F IH]; intros NE c C V; [reflexivity|]. cbn [length app code_escape fold_left]. cbn [fold_left] in V. destruct (hex_ishex _ _ X) as (_ & E & R).
  rewrite peek_cons. cbn [lbind]. rewrite E. replace (d <? 0) with false by lia. rewrite next by (apply ne_app; exact NE). cbn [lbind].
  assert (B : c * 16 + d < two31).
  { pose proof (fold_grows 16 ds ltac:(lia) (digits_nonneg 16 t ds ltac:(lia) F) (c * 16 + d) ltac:(lia)). lia. }
  unfold two31 in B. rewrite (wrap32_id (Z.shiftl c 4)) by (rewrite Z.shiftl_mul_pow2 by lia; unfold is_i32, two31; lia).
  rewrite (lor_low c d 4) by lia. apply IH; [exact NE|lia|exact V].
Qed.
Lemma dec_run t ds rest : Forall2 (digit_char 10) t ds -> not_next is_digit rest -> forall c n, 0 <= c -> fold_left (step 10) ds c < two31 ->
  dec_escape strict (t ++ rest) c n = LGood (fold_left (step 10) ds c, n + Z.of_nat (length t)) rest [].
Proof.
  intros F (y & more & -> & Y). induction F as [|x d t ds X F IH]; intros c n C V.
  - cbn [app fold_left dec_escape length]. rewrite Y. f_equal. f_equal. lia.
  - cbn [fold_left] in V. destruct X as (D & [(X & ->)|[X|X]]); [|lia|lia]. cbn [app dec_escape fold_left length]. replace (is_digit x) with true by (unfold is_digit; lia).
    assert (B : c * 10 + (x - 48) < two31).
    { pose proof (fold_grows 10 ds ltac:(lia) (digits_nonneg 10 t ds ltac:(lia) F) (c * 10 + (x - 48)) ltac:(lia)). lia. }
    unfold two31 in B. rewrite (wrap32_id (c * 10 + (x - 48))) by (unfold is_i32, two31; lia).
    assert (IH' := IH (c * 10 + (x - 48)) (n + 1) ltac:(lia) V).
    assert (W : exists z l, t ++ y :: more = z :: l) by (destruct t; cbn [app]; eauto). destruct W as (z & l & W). rewrite W in *. rewrite IH'. f_equal. f_equal. lia.
Qed.
Lemma fold_bound base t ds : 2 <= base <= 16 -> Forall2 (digit_char base) t ds -> forall v, 0 <= v -> 0 <= fold_left (step base) ds v /\ fold_left (step base) ds v < (v + 1) * base ^ Z.of_nat (length t).
Proof.
  intros B. induction 1 as [|x d t ds X F IH]; intros v V; cbn [fold_left length]; [rewrite Z.pow_0_r; lia|].
  destruct (digit_of_spec _ _ _ (proj2 B) X) as (_ & R & _). specialize (IH (v * base + d) ltac:(nia)). split; [lia|].
  rewrite Nat2Z.inj_succ, Z.pow_succ_r by lia. assert (0 < base ^ Z.of_nat (length t)) by (apply Z.pow_pos_nonneg; lia). nia.
Qed.

Lemma swallow_yes c l : l <> [] -> swallow strict c (c :: l) = LGood tt l [].
Proof. intros H. unfold swallow. rewrite match_yes by exact H. reflexivity. Qed.
Lemma swallow_no c d l : c <> d -> swallow strict c (d :: l) = LGood tt (d :: l) [].
Proof. intros H. unfold swallow. rewrite match_no by exact H. reflexivity. Qed.
Lemma nonneg_ok c cp l e : 0 <= c -> nonneg strict c cp l e = LGood (c, cp) l e.
Proof. intros C. unfold nonneg. replace (c <? 0) with false by lia. now rewrite andb_false_r. Qed.

(* The escape character, then something else. *)
Lemma litchar_escape utf8 ch l : ch <> 92 -> l <> [] -> litchar strict 92 utf8 (92 :: ch :: l) =
  match letter_escape ch with
      | Some c => nonneg strict c false l []
      | None =>
        if ch =? 120 then
          lbind (hex_escape strict 2 0 l) (fun c l _ => lbind (swallow strict 59 l) (fun _ l _ => nonneg strict c false l []))
        else if (ch =? 117) || (ch =? 85) then
          lbind (code_escape strict (if ch =? 117 then 4 else 8) 0 l) (fun c l errs => nonneg strict c true l errs)
        else if is_digit ch then
          lbind (dec_escape strict (ch :: l) 0 0) (fun cn l _ => lbind (swallow strict 59 l) (fun _ l _ =>
          let errs := if 3 <? snd cn then [27] else [] in
          if 255 <? fst cn then nonneg strict 0 false l (27 :: errs) else nonneg strict (fst cn) false l errs))
        else nonneg strict 0 false (ch :: l) [27]
      end.
Proof.
  intros C L. unfold litchar. rewrite match_yes by discriminate. cbn [lbind negb]. rewrite match_no by lia. cbn [lbind]. rewrite next by exact L. reflexivity.
Qed.

Lemma litchar_spec utf8 t v cp ok rest : character utf8 t v cp ok -> ok rest -> litchar strict 92 utf8 (t ++ rest) = LGood (v, cp) rest [].
Proof.
  intros H. destruct H as [c C NB U|cp t U T G|c v I| |t v (ds & F & ->) L|t v (ds & F & ->) L|t v (ds & F & ->) L|t v (ds & F & ->) L V|t v (ds & F & ->) L V|t v (ds & F & ->) L V]; intros K.
  - cbn [app]. unfold litchar. unfold BACKSLASH in NB. rewrite match_no by lia. cbn [lbind negb]. rewrite peek_cons. cbn [lbind]. cbv zeta.
    replace (utf8 && (127 <? c)) with false by (destruct utf8; cbn [andb]; [specialize (U eq_refl); lia|reflexivity]). rewrite next by exact K. reflexivity.
  - assert (W : exists x l, t ++ rest = x :: l /\ 128 <= x /\ x <> 92) by (destruct T; cbn [app]; eexists _, _; (split; [reflexivity|]); lia).
    destruct W as (x & l & W & X & N). unfold litchar. rewrite W. rewrite match_no by lia. cbn [lbind negb]. rewrite peek_cons. cbn [lbind]. cbv zeta. rewrite U. replace (127 <? x) with true by lia. cbn [andb].
    rewrite <- W, (get_utf8 cp t rest T K). cbn [lbind]. replace (0 <=? cp) with true by lia. reflexivity.
  - cbn [app]. unfold BACKSLASH. repeat (destruct I as [I|I]; [injection I as <- <-; rewrite litchar_escape by (try exact K; lia); cbn [letter_escape Z.eqb Pos.eqb orb]; apply nonneg_ok; lia|]). destruct I.
  - cbn [app]. unfold BACKSLASH. unfold litchar. rewrite match_yes by discriminate. cbn [lbind negb]. rewrite match_yes by exact K. reflexivity.
  - unfold BACKSLASH. rewrite <- !app_assoc. cbn [app]. rewrite litchar_escape by (try lia; apply ne_app; discriminate). cbn [letter_escape Z.eqb Pos.eqb orb].
    rewrite (hex_run t ds (59 :: rest) F ltac:(discriminate) 2 0 ltac:(lia)) by (intros; exists 59, rest; split; reflexivity).
    cbn [lbind]. rewrite swallow_yes by exact K. cbn [lbind]. apply nonneg_ok. apply (fold_bound 16 t ds); [lia|exact F|lia].
  - unfold BACKSLASH. rewrite <- !app_assoc. cbn [app]. destruct K as (y & more & -> & Y). rewrite litchar_escape by (try lia; apply ne_app; discriminate). cbn [letter_escape Z.eqb Pos.eqb orb].
    rewrite (hex_run t ds (y :: more) F ltac:(discriminate) 2 0 ltac:(lia)) by (intros Q; exists y, more; split; [reflexivity|]; replace (Z.of_nat (length t) <? 2) with true in Y by lia; destruct (ishex y); [lia|reflexivity]).
    cbn [lbind]. rewrite swallow_no by lia. cbn [lbind]. apply nonneg_ok. apply (fold_bound 16 t ds); [lia|exact F|lia].
  - unfold BACKSLASH. rewrite <- !app_assoc. cbn [app]. rewrite litchar_escape by (try lia; apply ne_app; exact K). cbn [letter_escape Z.eqb Pos.eqb orb]. rewrite <- L.
    destruct (fold_bound 16 t ds ltac:(lia) F 0 ltac:(lia)) as (B1 & B2). rewrite L in B2. change ((0 + 1) * 16 ^ Z.of_nat 4) with 65536 in B2.
    rewrite (code_run t ds rest F K 0 ltac:(lia)) by (unfold two31; lia). cbn [lbind]. now apply nonneg_ok.
  - unfold BACKSLASH. rewrite <- !app_assoc. cbn [app]. rewrite litchar_escape by (try lia; apply ne_app; exact K). cbn [letter_escape Z.eqb Pos.eqb orb]. rewrite <- L.
    rewrite (code_run t ds rest F K 0 ltac:(lia) V). cbn [lbind]. apply nonneg_ok. apply (fold_bound 16 t ds); [lia|exact F|lia].
  - destruct F as [|x d t ds X F]; [cbn [length] in L; lia|]. assert (F2 : Forall2 (digit_char 10) (x :: t) (d :: ds)) by (constructor; assumption).
    assert (XR : 48 <= x <= 57) by (destruct X as (X1 & X2); lia).
    unfold BACKSLASH. rewrite <- !app_assoc. cbn [app]. rewrite litchar_escape by (try lia; apply ne_app; discriminate).
    replace (letter_escape x) with (@None Z) by (unfold letter_escape; repeat match goal with |- context [x =? ?k] => replace (x =? k) with false by lia end; reflexivity).
    replace (x =? 120) with false by lia. replace ((x =? 117) || (x =? 85)) with false by lia. replace (is_digit x) with true by (unfold is_digit; lia).
    change (x :: t ++ 59 :: rest) with ((x :: t) ++ 59 :: rest).
    rewrite (dec_run (x :: t) (d :: ds) (59 :: rest) F2 ltac:(exists 59, rest; split; reflexivity) 0 0 ltac:(lia)) by (change (fold_left (step 10) (d :: ds) 0) with (value_of 10 (d :: ds)); unfold two31; lia).
    cbn [lbind]. rewrite swallow_yes by exact K. cbn [lbind fst snd]. cbv zeta. change (fold_left (step 10) (d :: ds) 0) with (value_of 10 (d :: ds)).
    replace (3 <? 0 + Z.of_nat (length (x :: t))) with false by lia. replace (255 <? value_of 10 (d :: ds)) with false by lia. apply nonneg_ok. apply (fold_bound 10 (x :: t) (d :: ds)); [lia|exact F2|lia].
  - destruct F as [|x d t ds X F]; [cbn [length] in L; lia|]. assert (F2 : Forall2 (digit_char 10) (x :: t) (d :: ds)) by (constructor; assumption).
    assert (XR : 48 <= x <= 57) by (destruct X as (X1 & X2); lia). destruct K as (y & more & -> & Y).
    unfold BACKSLASH. rewrite <- !app_assoc. cbn [app]. rewrite litchar_escape by (try lia; apply ne_app; discriminate).
    replace (letter_escape x) with (@None Z) by (unfold letter_escape; repeat match goal with |- context [x =? ?k] => replace (x =? k) with false by lia end; reflexivity).
    replace (x =? 120) with false by lia. replace ((x =? 117) || (x =? 85)) with false by lia. replace (is_digit x) with true by (unfold is_digit; lia).
    change (x :: t ++ y :: more) with ((x :: t) ++ y :: more).
    rewrite (dec_run (x :: t) (d :: ds) (y :: more) F2 ltac:(exists y, more; split; [reflexivity|destruct (is_digit y); lia]) 0 0 ltac:(lia)) by (change (fold_left (step 10) (d :: ds) 0) with (value_of 10 (d :: ds)); unfold two31; lia).
    cbn [lbind]. rewrite swallow_no by lia. cbn [lbind fst snd]. cbv zeta. change (fold_left (step 10) (d :: ds) 0) with (value_of 10 (d :: ds)).
    replace (3 <? 0 + Z.of_nat (length (x :: t))) with false by lia. replace (255 <? value_of 10 (d :: ds)) with false by lia. apply nonneg_ok. apply (fold_bound 10 (x :: t) (d :: ds)); [lia|exact F2|lia].
Qed.
End T.
