From Coq Require Import ZifyBool.
From Verif Require Import Base Base_Proofs Rt_Model Lex_Model Lex_Spec Lex_Proofs Lex_Text Lex_Str.

Section D.
Variable strict : bool.
Notation next := (advance_ne strict).

Lemma advance_ended c l : ended (c :: l) -> c <> 0 -> advance strict (c :: l) = LGood c l [] /\ ended l.
Proof. intros EN N. apply ended_next in EN; [|exact N]. split; [|exact EN]. apply next. destruct (ended_ne _ EN) as (? & ? & ->). discriminate. Qed.
Lemma ended_nn l : ended l -> l <> [].
Proof. intros EN. destruct (ended_ne _ EN) as (? & ? & ->). discriminate. Qed.
Lemma ishex_digit c : ishex c = true -> exists d, digit_char 16 c d /\ c <> 0.
Proof. unfold ishex, digit_char, is_digit. intros H. destruct ((48 <=? c) && (c <=? 57)) eqn:A; [exists (c - 48); lia|]. destruct ((97 <=? c) && (c <=? 102)) eqn:B; [exists (c - 87); lia|]. exists (c - 55). lia. Qed.
Lemma digit_of_ge c : 0 <= digit_of c -> exists d, digit_char 16 c d /\ c <> 0.
Proof. intros H. apply ishex_digit. unfold digit_of, is_digit in H. unfold ishex, is_digit. destruct ((48 <=? c) && (c <=? 57)) eqn:A; [lia|]. destruct ((65 <=? c) && (c <=? 70)) eqn:B; [lia|]. destruct ((97 <=? c) && (c <=? 102)) eqn:C; lia. Qed.

Lemma hex_inv n : forall c l, ended l -> exists t ds rest, l = t ++ rest /\ ended rest /\ Forall2 (digit_char 16) t ds /\ (length t <= n)%nat /\ ((length t < n)%nat -> not_next ishex rest) /\
  hex_escape strict n c l = LGood (fold_left (fun v d => v * 16 + d) ds c) rest [].
Proof.
  induction n as [|n IH]; intros c l EN.
  - exists [], [], l. repeat (split; [try reflexivity; try assumption; try constructor|]); [cbn [length]; lia|reflexivity].
  - cbn [hex_escape]. destruct (ended_ne _ EN) as (x & l' & ->). rewrite peek_cons. cbn [lbind]. destruct (ishex x) eqn:X.
    + destruct (ishex_digit _ X) as (d & D & N). destruct (advance_ended _ _ EN N) as (-> & EN2). cbn [lbind]. destruct (IH (c * 16 + digit_of x) l' EN2) as (t & ds & rest & -> & ER & F & L & NX & E).
      exists (x :: t), (d :: ds), rest. split; [reflexivity|]. split; [exact ER|]. split; [constructor; assumption|]. split; [cbn [length]; lia|]. split; [intros; apply NX; cbn [length] in *; lia|].
      rewrite E. destruct (hex_ishex _ _ D) as (_ & -> & _). reflexivity.
    + exists [], [], (x :: l'). split; [reflexivity|]. split; [exact EN|]. split; [constructor|]. split; [cbn [length]; lia|]. split; [intros _; exists x, l'; auto|reflexivity].
Qed.
Lemma code_inv n : forall c l v rest, ended l -> code_escape strict n c l = LGood v rest [] -> exists t ds, l = t ++ rest /\ ended rest /\ Forall2 (digit_char 16) t ds /\ length t = n.
Proof.
  induction n as [|n IH]; intros c l v rest EN H; cbn [code_escape] in H.
  - injection H as _ <-. exists [], []. repeat split; [exact EN|constructor].
  - destruct (ended_ne _ EN) as (x & l' & ->). rewrite peek_cons in H. cbn [lbind] in H. cbv zeta in H. destruct (digit_of x <? 0) eqn:X; [discriminate|].
    destruct (digit_of_ge x ltac:(lia)) as (d & D & N). destruct (advance_ended _ _ EN N) as (E & EN2). rewrite E in H. cbn [lbind] in H. destruct (IH _ _ _ _ EN2 H) as (t & ds & -> & ER & F & L).
    exists (x :: t), (d :: ds). split; [reflexivity|]. split; [exact ER|]. split; [constructor; assumption|]. cbn [length]. lia.
Qed.
Lemma dec_inv l : forall c n, ended l -> exists t ds rest v, l = t ++ rest /\ ended rest /\ Forall2 (digit_char 10) t ds /\ not_next is_digit rest /\ dec_escape strict l c n = LGood (v, n + Z.of_nat (length t)) rest [].
Proof.
  induction l as [|x l IH]; intros c n EN; [destruct (ended_ne _ EN) as (? & ? & ?); discriminate|]. cbn [dec_escape]. destruct (is_digit x) eqn:X.
  - assert (N : x <> 0) by (unfold is_digit in X; lia). pose proof (ended_next _ _ EN N) as EN2.
    destruct (IH (wrap32 (c * 10 + (x - 48))) (n + 1) EN2) as (t & ds & rest & v & -> & ER & F & NX & E).
    exists (x :: t), (x - 48 :: ds), rest, v. split; [reflexivity|]. split; [exact ER|]. split; [constructor; [unfold digit_char, is_digit in *; lia|exact F]|]. split; [exact NX|].
    assert (W : exists z l, t ++ rest = z :: l) by (destruct (ended_ne _ EN2) as (z & y & ->); eauto). destruct W as (z & y & W). rewrite W in *. rewrite E. f_equal. f_equal. cbn [length]. lia.
  - exists [], [], (x :: l), c. split; [reflexivity|]. split; [exact EN|]. split; [constructor|]. split; [exists x, l; auto|]. f_equal. f_equal. cbn [length]. lia.
Qed.

Lemma leftmost_table b : 128 <= b < 256 -> 255 - b = 0 \/ leftmost 8 (255 - b) = 0 \/ leftmost 8 (255 - b) = 6 \/
  (0xc0 <= b < 0xe0 /\ leftmost 8 (255 - b) = 5) \/ (0xe0 <= b < 0xf0 /\ leftmost 8 (255 - b) = 4) \/ (0xf0 <= b < 0xf8 /\ leftmost 8 (255 - b) = 3) \/
  (0xf8 <= b < 0xfc /\ leftmost 8 (255 - b) = 2) \/ (0xfc <= b < 0xfe /\ leftmost 8 (255 - b) = 1).
Proof.
  intros B. pose proof (range_all (fun b => (b <? 128) || (255 - b =? 0) || (leftmost 8 (255 - b) =? 0) || (leftmost 8 (255 - b) =? 6) ||
   ((0xc0 <=? b) && (b <? 0xe0) && (leftmost 8 (255 - b) =? 5)) || ((0xe0 <=? b) && (b <? 0xf0) && (leftmost 8 (255 - b) =? 4)) || ((0xf0 <=? b) && (b <? 0xf8) && (leftmost 8 (255 - b) =? 3)) ||
   ((0xf8 <=? b) && (b <? 0xfc) && (leftmost 8 (255 - b) =? 2)) || ((0xfc <=? b) && (b <? 0xfe) && (leftmost 8 (255 - b) =? 1))) 256 ltac:(vm_compute; reflexivity) b ltac:(lia)) as H. cbv beta in H.
  set (k := leftmost 8 (255 - b)) in *. clearbody k. lia.
Qed.
Lemma cont_table c : 0 <= c < 256 -> Z.land c 0xc0 = 0x80 -> 0x80 <= c < 0xc0.
Proof.
  intros B E. pose proof (range_all (fun c => negb (Z.land c 0xc0 =? 0x80) || ((0x80 <=? c) && (c <? 0xc0))) 256 ltac:(vm_compute; reflexivity) c ltac:(lia)) as H. cbv beta in H. rewrite E in H. lia.
Qed.
Lemma conts_inv n : forall r l v rest, ended l -> Forall is_byte l -> 0 <= v -> continuations strict n r l = LGood v rest [] ->
  exists t, l = t ++ rest /\ ended rest /\ Forall (fun c => 0x80 <= c < 0xc0) t /\ length t = n.
Proof.
  induction n as [|n IH]; intros r l v rest EN FB V H; cbn [continuations] in H.
  - injection H as _ <-. exists []. repeat split; [exact EN|constructor].
  - destruct (ended_ne _ EN) as (x & l' & ->). rewrite peek_cons in H. cbn [lbind] in H. inversion FB as [|? ? BX FB2]; subst.
    destruct (Z.land x 192 =? 128) eqn:X; cbn [negb] in H; [|injection H as <-; lia].
    assert (R : 0x80 <= x < 0xc0) by (apply cont_table; [exact BX|lia]). destruct (advance_ended _ _ EN ltac:(lia)) as (E & EN2). rewrite E in H. cbn [lbind] in H.
    destruct (IH _ _ _ _ EN2 FB2 V H) as (t & -> & ER & F & L). exists (x :: t). split; [reflexivity|]. split; [exact ER|]. split; [constructor; assumption|]. cbn [length]. lia.
Qed.

Lemma is_cont x : 0x80 <= x < 0xc0 -> x = 0x80 + (x - 0x80) /\ 0 <= x - 0x80 < 64.
Proof. lia. Qed.
Definition shape (t : list Z) : Prop :=
  match t with
  | [a] => a < 128
  | [a; b] => 0xc2 <= a < 0xe0
  | [a; b; c] => 0xe0 <= a < 0xf0 /\ 0x800 <= ((a - 0xe0) * 64 + (b - 0x80)) * 64 + (c - 0x80)
  | [a; b; c; d] => 0xf0 <= a < 0xf8 /\ 0x10000 <= (((a - 0xf0) * 64 + (b - 0x80)) * 64 + (c - 0x80)) * 64 + (d - 0x80) < 0x110000
  | _ => False
  end.
Lemma utf8_shape cp t : utf8_of cp t -> shape t.
Proof. intros [a A|a b A B|a b c A B C M|a b c d A B C D M]; unfold shape; lia. Qed.
Lemma utf8_big cp t : utf8_of cp t -> 128 <= hd 0 t -> 128 <= cp.
Proof. intros [a A|a b A B|a b c A B C M|a b c d A B C D M]; cbn [hd]; lia. Qed.
(* Either the bytes are the UTF-8 of a code point, or of none. *)
Lemma utf8_dec b t : 0xc0 <= b < 0xfe -> Forall (fun c => 0x80 <= c < 0xc0) t -> (exists cp, utf8_of cp (b :: t)) \/ (forall cp, ~ utf8_of cp (b :: t)).
Proof.
  intros B F. destruct t as [|x t].
  { right. intros cp U. apply utf8_shape in U; cbn [shape] in U; lia. }
  inversion F as [|? ? X F2]; subst. destruct t as [|y t].
  { destruct (Z_lt_dec b 0xc2) as [N|N]; [right; intros cp U; apply utf8_shape in U; cbn [shape] in U; lia|]. destruct (Z_lt_dec b 0xe0) as [N2|N2]; [|right; intros cp U; apply utf8_shape in U; cbn [shape] in U; lia].
    left. exists ((b - 0xc0) * 64 + (x - 0x80)). rewrite (ltac:(repeat f_equal; lia) : [b; x] = [0xc0 + (b - 0xc0); 0x80 + (x - 0x80)]). apply utf8_2; lia. }
  inversion F2 as [|? ? Y F3]; subst. destruct t as [|z t].
  { destruct (Z_lt_dec b 0xe0) as [N|N]; [right; intros cp U; apply utf8_shape in U; cbn [shape] in U; lia|]. destruct (Z_lt_dec b 0xf0) as [N2|N2]; [|right; intros cp U; apply utf8_shape in U; cbn [shape] in U; lia].
    destruct (Z_lt_dec (((b - 0xe0) * 64 + (x - 0x80)) * 64 + (y - 0x80)) 0x800) as [N3|N3].
    - right. intros cp U. apply utf8_shape in U; cbn [shape] in U; lia.
    - left. exists (((b - 0xe0) * 64 + (x - 0x80)) * 64 + (y - 0x80)). rewrite (ltac:(repeat f_equal; lia) : [b; x; y] = [0xe0 + (b - 0xe0); 0x80 + (x - 0x80); 0x80 + (y - 0x80)]). apply utf8_3; lia. }
  inversion F3 as [|? ? Z F4]; subst. destruct t as [|w t]; [|right; intros cp U; apply utf8_shape in U; cbn [shape] in U; exact U].
  destruct (Z_lt_dec b 0xf0) as [N|N]; [right; intros cp U; apply utf8_shape in U; cbn [shape] in U; lia|]. destruct (Z_lt_dec b 0xf8) as [N2|N2]; [|right; intros cp U; apply utf8_shape in U; cbn [shape] in U; lia].
  destruct (Z_lt_dec ((((b - 0xf0) * 64 + (x - 0x80)) * 64 + (y - 0x80)) * 64 + (z - 0x80)) 0x10000) as [N3|N3]; [right; intros cp U; apply utf8_shape in U; cbn [shape] in U; lia|].
  destruct (Z_lt_dec ((((b - 0xf0) * 64 + (x - 0x80)) * 64 + (y - 0x80)) * 64 + (z - 0x80)) 0x110000) as [N4|N4]; [|right; intros cp U; apply utf8_shape in U; cbn [shape] in U; lia].
  left. exists ((((b - 0xf0) * 64 + (x - 0x80)) * 64 + (y - 0x80)) * 64 + (z - 0x80)). rewrite (ltac:(repeat f_equal; lia) : [b; x; y; z] = [0xf0 + (b - 0xf0); 0x80 + (x - 0x80); 0x80 + (y - 0x80); 0x80 + (z - 0x80)]). apply utf8_4; lia.
Qed.
Lemma get_inv l v rest : ended l -> Forall is_byte l -> (exists c l', l = c :: l' /\ 127 < c) -> get_utf8_char strict l = LGood v rest [] -> 0 <= v ->
  exists b t, l = b :: t ++ rest /\ ended rest /\ 0xc0 <= b < 0xfe /\ Forall (fun c => 0x80 <= c < 0xc0) t.
Proof.
  intros EN FB (c & l' & -> & C) H V. unfold get_utf8_char in H. destruct (advance_ended _ _ EN ltac:(lia)) as (E & EN2). rewrite E in H. cbn [lbind] in H.
  inversion FB as [|? ? BC FB2]; subst. unfold is_byte in BC. replace (c <=? 127) with false in H by lia. cbv zeta in H.
  destruct (255 - c =? 0) eqn:Z0; [injection H as <- _; lia|].
  destruct (leftmost_table c ltac:(lia)) as [X|[X|[X|[(R & X)|[(R & X)|[(R & X)|[(R & X)|(R & X)]]]]]]]; [lia|rewrite X in H; injection H as <- _; lia|rewrite X in H; injection H as <- _; lia| | | | |]; rewrite X in H;
  cbn [Z.eqb Z.ltb Z.compare Pos.compare Pos.compare_cont orb] in H; destruct (conts_inv _ _ _ _ _ EN2 FB2 V H) as (t & -> & ER & F & _); exists c, t; (split; [reflexivity|]); (split; [exact ER|]); (split; [lia|exact F]).
Qed.

Lemma litchar_sound utf8 l v cp rest : ended l -> Forall is_byte l -> litchar strict 92 utf8 l = LGood (v, cp) rest [] ->
  exists t, l = t ++ rest /\ ((exists ok, character utf8 t v cp ok /\ ok rest) \/ misread utf8 t).
Proof.
  intros EN FB H. destruct (ended_ne _ EN) as (c & l' & ->). destruct (Z.eq_dec c 92) as [->|NC].
  - destruct (advance_ended _ _ EN ltac:(lia)) as (_ & EN2). destruct (ended_ne _ EN2) as (ch & l3 & ->).
    destruct (Z.eq_dec ch 92) as [->|N2].
    { destruct (advance_ended _ _ EN2 ltac:(lia)) as (_ & EN3). unfold litchar in H. rewrite match_yes in H by discriminate. cbn [lbind negb] in H. rewrite match_yes in H by now apply ended_nn. cbn [lbind] in H.
      injection H as <- <- <-. exists [92; 92]. split; [reflexivity|]. left. eexists. split; [apply ch_backslash|]. now apply ended_nn. }
    destruct (Z.eq_dec ch 0) as [->|N0].
    { exfalso. unfold litchar in H. rewrite match_yes in H by discriminate. cbn [lbind negb] in H. rewrite match_no in H by lia. cbn [lbind] in H.
      destruct l3 as [|x l3]; [unfold advance in H; destruct strict; [discriminate|]|rewrite next in H by discriminate]; cbn [lbind letter_escape Z.eqb Pos.eqb orb] in H;
      change (is_digit 0) with false in H; cbv iota in H; rewrite nonneg_ok in H by lia; discriminate. }
    destruct (advance_ended _ _ EN2 N0) as (_ & EN3). rewrite litchar_escape in H by (try exact N2; now apply ended_nn).
    destruct (letter_escape ch) as [w|] eqn:LE.
    { exists [92; ch]. assert (I : In (ch, w) [(97, 7); (98, 8); (101, 27); (102, 12); (110, 10); (114, 13); (116, 9); (118, 11); (39, 39); (34, 34); (37, 37)]).
      { clear - LE. unfold letter_escape in LE.
        destruct (ch =? 97) eqn:E1; [apply Z.eqb_eq in E1; subst; injection LE as <-; cbn; tauto|]. destruct (ch =? 98) eqn:E2; [apply Z.eqb_eq in E2; subst; injection LE as <-; cbn; tauto|].
        destruct (ch =? 101) eqn:E3; [apply Z.eqb_eq in E3; subst; injection LE as <-; cbn; tauto|]. destruct (ch =? 102) eqn:E4; [apply Z.eqb_eq in E4; subst; injection LE as <-; cbn; tauto|].
        destruct (ch =? 110) eqn:E5; [apply Z.eqb_eq in E5; subst; injection LE as <-; cbn; tauto|]. destruct (ch =? 114) eqn:E6; [apply Z.eqb_eq in E6; subst; injection LE as <-; cbn; tauto|].
        destruct (ch =? 116) eqn:E7; [apply Z.eqb_eq in E7; subst; injection LE as <-; cbn; tauto|]. destruct (ch =? 118) eqn:E8; [apply Z.eqb_eq in E8; subst; injection LE as <-; cbn; tauto|].
        destruct (ch =? 39) eqn:E9; [apply Z.eqb_eq in E9; subst; cbn [orb] in LE; injection LE as <-; cbn; tauto|]. destruct (ch =? 34) eqn:E10; [apply Z.eqb_eq in E10; subst; cbn [orb] in LE; injection LE as <-; cbn; tauto|].
        destruct (ch =? 37) eqn:E11; [apply Z.eqb_eq in E11; subst; cbn [orb] in LE; injection LE as <-; cbn; tauto|]. discriminate LE. }
      assert (W : 0 <= w) by (cbn [In] in I; repeat (destruct I as [I|I]; [injection I as <- <-; lia|]); destruct I).
      rewrite nonneg_ok in H by exact W. injection H as <- <- <-. split; [reflexivity|]. left. eexists. split; [apply ch_letter; exact I|]. now apply ended_nn. }
    destruct (ch =? 120) eqn:E120.
    { apply Z.eqb_eq in E120. subst ch. destruct (hex_inv 2 0 l3 EN3) as (t & ds & r1 & -> & ER & F & L & NX & E). rewrite E in H. cbn [lbind] in H. clear E.
      destruct (ended_ne _ ER) as (y & more & ->). destruct (fold_bound 16 t ds ltac:(lia) F 0 ltac:(lia)) as (B1 & B2).
      destruct (Z.eq_dec y 59) as [->|N59].
      - destruct (advance_ended _ _ ER ltac:(lia)) as (_ & ER2). rewrite swallow_yes in H by now apply ended_nn. cbn [lbind] in H. rewrite nonneg_ok in H by exact B1. injection H as <- <- <-.
        exists ([92; 120] ++ t ++ [59]). split; [rewrite <- !app_assoc; reflexivity|]. destruct t as [|x t]; [right; apply mr_hex; now right|].
        left. eexists. split; [apply ch_hex; [exists ds; split; [exact F|reflexivity]|cbn [length] in *; lia]|]. now apply ended_nn.
      - rewrite swallow_no in H by lia. cbn [lbind] in H. rewrite nonneg_ok in H by exact B1. injection H as <- <- <-.
        exists ([92; 120] ++ t). split; [rewrite <- !app_assoc; reflexivity|]. destruct t as [|x t]; [right; apply mr_hex; now left|].
        left. eexists. split; [apply ch_hex_open; [exists ds; split; [exact F|reflexivity]|cbn [length] in *; lia]|].
        exists y, more. split; [reflexivity|]. destruct (y =? 59) eqn:Y; [lia|]. cbn [orb]. destruct (Z.of_nat (length (x :: t)) <? 2) eqn:LT; [|reflexivity].
        destruct (NX ltac:(lia)) as (y' & more' & EE & YY). injection EE as <- <-. now rewrite YY. }
    destruct ((ch =? 117) || (ch =? 85)) eqn:EU.
    { destruct (code_escape strict (if ch =? 117 then 4%nat else 8%nat) 0 l3) as [w r1 e1|] eqn:CE; [|discriminate]. cbn [lbind] in H.
      assert (E1 : e1 = [] /\ w = v /\ cp = true /\ r1 = rest). { clear - H. unfold nonneg in H. destruct (strict && (w <? 0)); [discriminate|]. injection H as <- <- <- <-. auto. }
      destruct E1 as (-> & -> & -> & ->). destruct (code_inv _ _ _ _ _ EN3 CE) as (t & ds & -> & ER & F & L).
      destruct (fold_bound 16 t ds ltac:(lia) F 0 ltac:(lia)) as (B1 & B2).
      exists ([92; ch] ++ t). split; [rewrite <- !app_assoc; reflexivity|]. destruct (ch =? 117) eqn:E117.
      - apply Z.eqb_eq in E117. subst ch. rewrite L in B2. change ((0 + 1) * 16 ^ Z.of_nat 4) with 65536 in B2.
        rewrite <- L in CE. rewrite (code_run strict t ds rest F ltac:(now apply ended_nn) 0 ltac:(lia)) in CE by (unfold two31; lia). injection CE as <-.
        left. eexists. split; [apply ch_u; [exists ds; split; [exact F|reflexivity]|exact L]|]. now apply ended_nn.
      - assert (ch = 85) by lia. subst ch. destruct (Z_lt_dec (value_of 16 ds) two31) as [V|V].
        + rewrite <- L in CE. rewrite (code_run strict t ds rest F ltac:(now apply ended_nn) 0 ltac:(lia) V) in CE. injection CE as <-.
          left. eexists. split; [apply ch_U; [exists ds; split; [exact F|reflexivity]|exact L|exact V]|]. now apply ended_nn.
        + right. eapply mr_U; [exists ds; split; [exact F|reflexivity]|exact L|lia]. }
    destruct (is_digit ch) eqn:ED; [|exfalso; rewrite nonneg_ok in H by lia; discriminate].
    destruct (dec_inv (ch :: l3) 0 0 EN2) as (t & ds & r1 & w & W & ER & F & NX & E). rewrite E in H. cbn [lbind] in H.
    assert (LT : (1 <= length t)%nat). { destruct t as [|x t]; [|cbn [length]; lia]. exfalso. cbn [app] in W. subst r1. destruct NX as (y & more & EE & YY). injection EE as <- <-. congruence. }
    destruct (ended_ne _ ER) as (y & more & ->).
    assert (SW : exists r2, swallow strict 59 (y :: more) = LGood tt r2 [] /\ ((y = 59 /\ r2 = more /\ more <> []) \/ (y <> 59 /\ r2 = y :: more))).
    { destruct (Z.eq_dec y 59) as [->|N59].
      - destruct (advance_ended _ _ ER ltac:(lia)) as (_ & ER2). eexists. split; [apply swallow_yes; now apply ended_nn|]. left. repeat split. now apply ended_nn.
      - eexists. split; [apply swallow_no; lia|]. auto. }
    destruct SW as (r2 & SE & SC). rewrite SE in H. cbn [lbind fst snd] in H. cbv zeta in H.
    destruct (255 <? w) eqn:W255; [exfalso; rewrite nonneg_ok in H by lia; discriminate|].
    destruct (3 <? 0 + Z.of_nat (length t)) eqn:N3; [exfalso; unfold nonneg in H; destruct (strict && (w <? 0)); discriminate|].
    destruct (fold_bound 10 t ds ltac:(lia) F 0 ltac:(lia)) as (B1 & B2).
    assert (B3 : (0 + 1) * 10 ^ Z.of_nat (length t) <= 1000). { change 1000 with ((0 + 1) * 10 ^ 3). apply Z.mul_le_mono_nonneg_l; [lia|]. apply Z.pow_le_mono_r; lia. }
    rewrite W in E. rewrite (dec_run strict t ds (y :: more) F NX 0 0 ltac:(lia)) in E by (unfold two31; lia). injection E as <-.
    rewrite nonneg_ok in H by exact B1. injection H as <- <- <-. assert (VV : value_of 10 ds < 256) by (change (value_of 10 ds) with (fold_left (fun v d => v * 10 + d) ds 0); lia).
    assert (DT : dec_text t (fold_left (fun v d => v * 10 + d) ds 0)) by (exists ds; split; [exact F|reflexivity]).
    destruct SC as [(-> & -> & NM)|(N59 & ->)].
    + exists ([92] ++ t ++ [59]). split; [cbn [app]; rewrite W; rewrite <- app_assoc; reflexivity|]. left. eexists. split; [apply ch_dec; [exact DT|lia|exact VV]|exact NM].
    + exists ([92] ++ t). split; [cbn [app]; rewrite W; reflexivity|]. left. eexists. split; [apply ch_dec_open; [exact DT|lia|exact VV]|].
      exists y, more. split; [reflexivity|]. destruct NX as (y' & more' & EE & YY). injection EE as <- <-. rewrite YY. lia.
  - unfold litchar in H. rewrite match_no in H by lia. cbn [lbind negb] in H. rewrite peek_cons in H. cbn [lbind] in H. cbv zeta in H.
    inversion FB as [|? ? BC FB2]; subst. unfold is_byte in BC.
    destruct (Z.eq_dec c 0) as [->|N0].
    { exists [0]. rewrite (ltac:(destruct utf8; reflexivity) : utf8 && (127 <? 0) = false) in H. split; [|right; constructor].
      destruct l' as [|x l']; [unfold advance in H; destruct strict; [discriminate|]|rewrite next in H by discriminate]; cbn [lbind] in H; injection H as _ _ <-; reflexivity. }
    destruct (advance_ended _ _ EN N0) as (AE & EN2). rewrite AE in H.
    destruct (utf8 && (127 <? c)) eqn:U.
    + apply andb_true_iff in U. destruct U as (-> & U). destruct (get_utf8_char strict (c :: l')) as [w r1 e1|] eqn:G; [|discriminate]. cbn [lbind] in H.
      destruct (0 <=? w) eqn:W; [|discriminate]. injection H as <- <- <-.
      assert (G2 : e1 = []). { clear - G AE. revert G. unfold get_utf8_char. rewrite AE. cbn [lbind]. destruct (c <=? 127); [intros G; injection G; auto|]. cbv zeta. destruct (255 - c =? 0); [intros G; injection G; auto|].
        destruct ((leftmost 8 (255 - c) =? 0) || (5 <? leftmost 8 (255 - c))); [intros G; injection G; auto|]. generalize (Z.land c (2 ^ leftmost 8 (255 - c) - 1)). generalize (Z.to_nat (6 - leftmost 8 (255 - c))).
        clear. intros n. revert l'. induction n as [|n IH]; intros l r G; cbn [continuations] in G; [injection G; auto|]. destruct (peek l) as [x ? ?|]; [|discriminate]. cbn [lbind] in G. destruct (negb (Z.land x 192 =? 128)); [injection G; auto|].
        destruct (advance strict l); [|discriminate]. cbn [lbind] in G. eapply IH. exact G. }
      subst e1. destruct (get_inv _ _ _ EN FB ltac:(exists c, l'; split; [reflexivity|lia]) G ltac:(lia)) as (b & t & EQ & ER & BR & F). exists (b :: t). split; [exact EQ|].
      destruct (utf8_dec b t BR F) as [(cp & UO)|NU]; [|right; now constructor].
      left. assert (GG : get_utf8_char strict ((b :: t) ++ r1) = LGood cp r1 []) by (apply get_utf8; [exact UO|now apply ended_nn]). cbn [app] in GG. rewrite <- EQ, G in GG. injection GG as ->.
      eexists. split; [apply ch_utf8; [reflexivity|exact UO|]|now apply ended_nn]. apply (utf8_big _ _ UO). cbn [hd]. lia.
    + cbn [lbind] in H. injection H as <- <- <-. exists [c]. split; [reflexivity|]. left. eexists. split; [apply ch_plain; [lia|unfold BACKSLASH; lia|]|now apply ended_nn].
      intros ->. cbn [andb] in U. lia.
Qed.
End D.
