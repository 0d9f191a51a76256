(* C32: concrete texts. *)
From Coq Require Import ZifyBool.
From Coq Require String. Import String.StringSyntax.
From Verif Require Import Base Base_Proofs Rt_Model Lex_Model Lex_Spec Lex_Proofs Lex_Text Lex_Str Lex_Sound Lex_Safe.
Local Open Scope string_scope.
Local Open Scope Z_scope.

Definition ascii (s : String.string) : list Z := map (fun c => Z.of_nat (Ascii.nat_of_ascii c)) (String.list_ascii_of_string s).

(* 1_000 and 0xFF_FF. *)
Lemma thousand : spelled 10 (ascii "1_000") [1; 0; 0; 0] /\ value_of 10 [1; 0; 0; 0] = 1000 /\ number_ends 10 (ascii ";").
Proof.
  split; [|split; [reflexivity|exists 59, []; repeat split; intros; lia]].
  change (ascii "1_000") with [49; 95; 48; 48; 48].
  apply sp_digit; [split; [lia|left; lia]|]. apply sp_sep. do 3 (apply sp_digit; [split; [lia|left; lia]|]). apply sp_end.
Qed.
Lemma hex_big : number_prefix 16 (ascii "0x") /\ spelled 16 (ascii "FFFF_FFFF_FFFF_FFFF_0") (repeat 15 16 ++ [0]) /\ 2 ^ 64 <= value_of 16 (repeat 15 16 ++ [0]) /\ number_ends 16 (ascii ";" ++ [0]).
Proof.
  split; [constructor|]. split; [|split; [vm_compute; discriminate|exists 59, [0]; repeat split; intros; lia]].
  change (ascii "FFFF_FFFF_FFFF_FFFF_0") with [70; 70; 70; 70; 95; 70; 70; 70; 70; 95; 70; 70; 70; 70; 95; 70; 70; 70; 70; 95; 48].
  change (repeat 15 16 ++ [0]) with [15; 15; 15; 15; 15; 15; 15; 15; 15; 15; 15; 15; 15; 15; 15; 15; 0].
  repeat first [apply sp_sep | apply sp_digit; [split; [lia|first [left; lia | right; right; lia]]|] | apply sp_end].
Qed.
Lemma hex_text_ab : hex_text (ascii "aB") 171.
Proof. change (ascii "aB") with [97; 66]. exists [10; 11]. split; [repeat (apply Forall2_cons; [split; [lia|right; lia]|]); apply Forall2_nil|reflexivity]. Qed.
Lemma hex_char : character false (ascii "\xaB;") 171 false (fun r => r <> []).
Proof. exact (ch_hex false (ascii "aB") 171 hex_text_ab (conj (le_S _ _ (le_n 1)) (le_n 2))). Qed.
(* "hé\n": a letter, a two-byte character and an escape. *)
Definition greeting : list Z := [104; 195; 169; 92; 110].
Lemma greeting_body more : body (34 :: more) greeting [104; 195; 169; 10].
Proof.
  assert (E : utf8_of 233 [195; 169]) by (exact (utf8_2 3 41 ltac:(lia) ltac:(lia))).
  change (body (34 :: more) ([104] ++ [195; 169] ++ [92; 110] ++ []) ([104] ++ [195; 169] ++ [10] ++ [])).
  eapply body_char; [apply ch_plain; [lia|unfold BACKSLASH; lia|lia]|reflexivity|discriminate|exists 104, []; unfold line_break; repeat split; lia|].
  eapply body_char; [apply ch_utf8; [reflexivity|exact E|lia]|split; [unfold scalar; lia|exact E]|discriminate|exists 195, [169]; unfold line_break; repeat split; lia|].
  eapply body_char; [apply (ch_letter true 110 10); cbn; tauto|reflexivity|discriminate|exists 92, [110]; unfold line_break; repeat split; lia|].
  apply body_end.
Qed.

(* "\xG": no hexadecimal digit, no message. *)
Lemma open_body : body [0] [104; 105] [104; 105].
Proof.
  change (body [0] ([104] ++ [105] ++ []) ([104] ++ [105] ++ [])).
  eapply body_char; [apply ch_plain; [lia|unfold BACKSLASH; lia|lia]|reflexivity|discriminate|exists 104, []; unfold line_break; repeat split; lia|].
  eapply body_char; [apply ch_plain; [lia|unfold BACKSLASH; lia|lia]|reflexivity|discriminate|exists 105, []; unfold line_break; repeat split; lia|].
  apply body_end.
Qed.
Lemma hex_empty strict lenient : string_literal strict 92 lenient (34 :: ascii "\xG" ++ [34; 59; 0]) = LGood (Some [0; 71]) [59; 0] [].
Proof. destruct strict, lenient; reflexivity. Qed.
(* "\UFFFFFFFF": an assertion, or nothing at all. *)
Lemma code_big lenient : string_literal true 92 lenient (34 :: ascii "\UFFFFFFFF" ++ [34; 59; 0]) = LUndef UBAssert /\
  string_literal false 92 lenient (34 :: ascii "\UFFFFFFFF" ++ [34; 59; 0]) = LGood (Some []) [59; 0] [].
Proof. destruct lenient; split; vm_compute; reflexivity. Qed.
(* "\U00110000", and the same number as four bytes: an exception. *)
Lemma code_beyond strict lenient : string_literal strict 92 lenient (34 :: ascii "\U00110000" ++ [34; 59; 0]) = LGood None [34; 59; 0] [] /\
  string_literal strict 92 lenient (34 :: [0xf4; 0x90; 0x80; 0x80] ++ [34; 59; 0]) = LGood None [34; 59; 0] [].
Proof. destruct strict, lenient; split; vm_compute; reflexivity. Qed.
(* Two bytes that are not UTF-8 become the byte 0. *)
Lemma overlong strict lenient : string_literal strict 92 lenient (34 :: [65; 0xc0; 0x80; 66] ++ [34; 59; 0]) = LGood (Some [65; 0; 66]) [59; 0] [] /\ forall cp, ~ utf8_of cp [0xc0; 0x80].
Proof. split; [destruct strict, lenient; vm_compute; reflexivity|]. intros cp U. apply utf8_shape in U. cbn [shape] in U. lia. Qed.
(* A text that ends in a quote. *)
Lemma quote_at_end : char_literal true 92 [39; 0] = LUndef UBAssert /\ char_literal false 92 [39; 0] = LUndef UBMem.
Proof. split; reflexivity. Qed.
Lemma slash_at_end lenient : string_literal true 92 lenient [34; 92; 0] = LUndef UBAssert.
Proof. destruct lenient; reflexivity. Qed.

(* Numbers of 64 bits. *)
Lemma int64_fits errno v : 0 <= v < 2 ^ 63 - 1 -> to_int64 errno v = Some v.
Proof. intros V. unfold to_int64, I64_MAX. replace (2 ^ 63 - 1 <? v) with false by lia. replace (v =? 2 ^ 63 - 1) with false by lia. reflexivity. Qed.
Lemma int64_beyond errno v : 2 ^ 63 <= v -> to_int64 errno v = None.
Proof. intros V. unfold to_int64, I64_MAX. replace (2 ^ 63 - 1 <? v) with true by lia. reflexivity. Qed.
Lemma int64_stale : exists v, v = 2 ^ 63 - 1 /\ to_int64 false v = Some v /\ to_int64 true v = None.
Proof. exists (2 ^ 63 - 1). repeat split; reflexivity. Qed.
Lemma leading_zero strict : exists t rest tok, lex_number strict (ascii "0_" ++ [59; 0]) = LGood (Some tok) rest [] /\ t = ascii "0_" /\ tok = TNumber 0.
Proof. destruct strict; do 3 eexists; split; vm_compute; eauto. Qed.

Lemma utf8_identity strict lenient cp rest : scalar cp -> rest <> [] -> exists t, to_utf8 lenient cp = Some t /\ utf8_of cp t /\ get_utf8_char strict (t ++ rest) = LGood cp rest [].
Proof. intros S NE. destruct (to_utf8_of lenient cp S) as (t & E & U). exists t. split; [exact E|]. split; [exact U|]. now apply get_utf8. Qed.
Lemma packed_enough strict lenient text data errs more : last text 0 <> 92 ->
  packedstring strict 92 lenient (length (text ++ [0]) + more) 34 (text ++ [0]) data errs = packedstring strict 92 lenient (length (text ++ [0])) 34 (text ++ [0]) data errs.
Proof.
  intros NL. apply packed_fuel; [now exists text| |lia].
  intros p E. change [92; 0] with ([92] ++ [0]) in E. rewrite app_assoc in E. apply app_inj_tail in E. destruct E as (-> & _). rewrite last_last in NL. congruence.
Qed.
Lemma litchar_silent strict utf8 text v cp rest : Forall is_byte text -> litchar strict 92 utf8 (text ++ [0]) = LGood (v, cp) rest [] ->
  exists t, text ++ [0] = t ++ rest /\ ((exists ok, character utf8 t v cp ok /\ ok rest) \/ misread utf8 t).
Proof.
  intros FB H. apply (litchar_sound strict); [now exists text| |exact H]. apply Forall_app. split; [exact FB|]. apply Forall_cons; [unfold is_byte; lia|apply Forall_nil].
Qed.
Lemma string_contained lenient text : last text 0 <> 92 -> exists r rest e, string_literal false 92 lenient (34 :: text ++ [0]) = LGood r rest e /\ exists more, rest = more ++ [0].
Proof. intros NL. destruct (string_reads false lenient text NL) as [H|(D & _)]; [exact H|discriminate]. Qed.
Lemma char_contained text : text <> [] -> hd 0 text <> 0 -> last text 0 <> 92 -> exists r rest e, char_literal false 92 (39 :: text ++ [0]) = LGood r rest e /\ exists more, rest = more ++ [0].
Proof. intros NE N0 NL. destruct (char_reads false text NE N0 NL) as [H|(D & _)]; [exact H|discriminate]. Qed.
