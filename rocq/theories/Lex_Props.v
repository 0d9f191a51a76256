(* C32: literals. *)
From Coq Require String. Import String.StringSyntax.
From Verif Require Import Base Rt_Model Lex_Model Lex_Spec Lex_Proofs Lex_Text Lex_Str Lex_Sound Lex_Safe Lex_Cases.
Local Open Scope string_scope.
Local Open Scope Z_scope.

(* A number that fits into 64 bits is read as its value, without a message; [number_ends] says that the number ends
   where the text says it does. *)
Theorem C32_number : forall strict base p t ds rest, number_prefix base p -> spelled base t ds -> ds <> [] ->
  value_of base ds < 2 ^ 64 -> number_ends base rest ->
  lex_number strict (p ++ t ++ rest) = LGood (Some (token_of base (value_of base ds))) rest [].
Proof. exact number_good. Qed.
Print Assumptions C32_number.

Example C32_number_example : spelled 10 (ascii "1_000") [1; 0; 0; 0] /\ value_of 10 [1; 0; 0; 0] = 1000 /\ number_ends 10 (ascii ";").
Proof. exact thousand. Qed.

(* One that does not fit is reported. *)
Theorem C32_number_big : forall strict base p t ds rest, number_prefix base p -> spelled base t ds -> 2 ^ 64 <= value_of base ds ->
  number_ends base rest -> (exists more, rest = more ++ [0]) ->
  exists tok rest' e, lex_number strict (p ++ t ++ rest) = LGood tok rest' e /\ In 135 e.
Proof. exact number_big. Qed.
Print Assumptions C32_number_big.

Example C32_number_big_example : number_prefix 16 (ascii "0x") /\ spelled 16 (ascii "FFFF_FFFF_FFFF_FFFF_0") (repeat 15 16 ++ [0]) /\
  2 ^ 64 <= value_of 16 (repeat 15 16 ++ [0]) /\ number_ends 16 (ascii ";" ++ [0]).
Proof. exact hex_big. Qed.

(* Conversely, whatever is read without a message is the number its text spells: digits of another base, missing digits
   and letters behind a number are never passed over.  With a point and a digit behind it, it is the whole part of a
   rational number. *)
Theorem C32_number_silent : forall strict l tok rest, lex_number strict l = LGood (Some tok) rest [] ->
  exists base p t ds, number_prefix base p /\ spelled base t ds /\ ds <> [] /\ value_of base ds < 2 ^ 64 /\
    ((l = p ++ t ++ rest /\ tok = token_of base (value_of base ds) /\ number_ends base rest) \/
     (base = 10 /\ l = p ++ t ++ 46 :: rest /\ tok = TFloat (value_of 10 ds) /\ exists d more, rest = d :: more /\ is_digit d = true)).
Proof. exact number_sound. Qed.
Print Assumptions C32_number_silent.

(* Reading a number never leaves the text. *)
Theorem C32_number_safe : forall strict text, exists tok rest e,
  lex_number strict (text ++ [0]) = LGood tok rest e /\ exists more, rest = more ++ [0].
Proof. exact number_safe. Qed.
Print Assumptions C32_number_safe.

(* Numbers beyond 32 bits are signed: those up to 2^63 - 2 keep their value, those from 2^63 on are refused. *)
Theorem C32_int64_partial : forall errno v, 0 <= v < 2 ^ 63 - 1 -> to_int64 errno v = Some v.
Proof. exact int64_fits. Qed.
Print Assumptions C32_int64_partial.
Theorem C32_int64_beyond : forall errno v, 2 ^ 63 <= v -> to_int64 errno v = None.
Proof. exact int64_beyond. Qed.
Print Assumptions C32_int64_beyond.
(* 2^63 - 1 fits, but is refused when errno is left over from an earlier failure. *)
Theorem C32_int64_refuted : exists v, v = 2 ^ 63 - 1 /\ to_int64 false v = Some v /\ to_int64 true v = None.
Proof. exact int64_stale. Qed.
Print Assumptions C32_int64_refuted.

(* Every character of a literal is read as the value it stands for. *)
Theorem C32_character : forall strict utf8 t v cp ok rest, character utf8 t v cp ok -> ok rest ->
  litchar strict 92 utf8 (t ++ rest) = LGood (v, cp) rest [].
Proof. exact litchar_spec. Qed.
Print Assumptions C32_character.
Theorem C32_char_literal : forall strict t v cp ok rest, character false t v cp ok -> ok (39 :: rest) -> rest <> [] ->
  char_literal strict 92 (39 :: t ++ 39 :: rest) = LGood v rest [].
Proof. exact char_literal_spec. Qed.
Print Assumptions C32_char_literal.
(* A missing closing quote is reported (message 27). *)
Theorem C32_char_open : forall strict t v cp ok q rest, character false t v cp ok -> ok (q :: rest) -> q <> 39 ->
  char_literal strict 92 (39 :: t ++ q :: rest) = LGood v (q :: rest) [27].
Proof. exact char_open. Qed.
Print Assumptions C32_char_open.
Example C32_character_example : character false (ascii "\xaB;") 171 false (fun r => r <> []).
Proof. exact hex_char. Qed.

(* Conversely, what is read without a message is such a character, or one of the texts listed as [misread]. *)
Theorem C32_character_silent_partial : forall strict utf8 text v cp rest, Forall is_byte text ->
  litchar strict 92 utf8 (text ++ [0]) = LGood (v, cp) rest [] ->
  exists t, text ++ [0] = t ++ rest /\ ((exists ok, character utf8 t v cp ok /\ ok rest) \/ misread utf8 t).
Proof. exact litchar_silent. Qed.
Print Assumptions C32_character_silent_partial.

(* Encoding a code point and reading it back is the identity, and the encoding is UTF-8. *)
Theorem C32_utf8 : forall strict lenient cp rest, scalar cp -> rest <> [] ->
  exists t, to_utf8 lenient cp = Some t /\ utf8_of cp t /\ get_utf8_char strict (t ++ rest) = LGood cp rest [].
Proof. exact utf8_identity. Qed.
Print Assumptions C32_utf8.
Example C32_utf8_example : scalar 0x10ffff /\ scalar 0x20ac.
Proof. unfold scalar. split; (split; [split; [discriminate|reflexivity]|]); [right; discriminate|left; reflexivity]. Qed.

(* A string literal stands for the bytes of its characters; lines joined by a backslash are one string. *)
Theorem C32_string : forall strict lenient text data more, body (34 :: more) text data -> more <> [] ->
  string_literal strict 92 lenient (34 :: text ++ 34 :: more) = LGood (Some data) more [].
Proof. exact string_spec. Qed.
Print Assumptions C32_string.
(* One that the line or the text ends in is reported (message 37). *)
Theorem C32_string_open : forall strict lenient text data x more, x = 0 \/ line_break x -> body (x :: more) text data ->
  string_literal strict 92 lenient (34 :: text ++ x :: more) = LGood (Some data) (x :: more) [37].
Proof. exact string_open. Qed.
Print Assumptions C32_string_open.
Example C32_string_open_example : body [0] [104; 105] [104; 105].
Proof. exact open_body. Qed.
Example C32_string_example : forall more, body (34 :: more) greeting [104; 195; 169; 10].
Proof. exact greeting_body. Qed.

(* In a release build reading a string or a character stays in the text, if the text does not end in a backslash or in
   the opening quote; and the loop of the model is long enough. *)
Theorem C32_string_safe_partial : forall lenient text, last text 0 <> 92 ->
  exists r rest e, string_literal false 92 lenient (34 :: text ++ [0]) = LGood r rest e /\ exists more, rest = more ++ [0].
Proof. exact string_contained. Qed.
Print Assumptions C32_string_safe_partial.
Theorem C32_char_safe_partial : forall text, text <> [] -> hd 0 text <> 0 -> last text 0 <> 92 ->
  exists r rest e, char_literal false 92 (39 :: text ++ [0]) = LGood r rest e /\ exists more, rest = more ++ [0].
Proof. exact char_contained. Qed.
Print Assumptions C32_char_safe_partial.
Theorem C32_string_turns : forall strict lenient text data errs more, last text 0 <> 92 ->
  packedstring strict 92 lenient (length (text ++ [0]) + more) 34 (text ++ [0]) data errs =
  packedstring strict 92 lenient (length (text ++ [0])) 34 (text ++ [0]) data errs.
Proof. exact packed_enough. Qed.
Print Assumptions C32_string_turns.

(* \x without a digit is the byte 0, without a message. *)
Theorem C32_hex_refuted : forall strict lenient, string_literal strict 92 lenient (34 :: ascii "\xG" ++ [34; 59; 0]) = LGood (Some [0; 71]) [59; 0] [].
Proof. exact hex_empty. Qed.
Print Assumptions C32_hex_refuted.
(* \UFFFFFFFF fails an assertion; a release build drops it without a message. *)
Theorem C32_code_refuted : forall lenient, string_literal true 92 lenient (34 :: ascii "\UFFFFFFFF" ++ [34; 59; 0]) = LUndef UBAssert /\
  string_literal false 92 lenient (34 :: ascii "\UFFFFFFFF" ++ [34; 59; 0]) = LGood (Some []) [59; 0] [].
Proof. exact code_big. Qed.
Print Assumptions C32_code_refuted.
(* A number beyond the last code point ends the compiler with an exception. *)
Theorem C32_beyond_refuted : forall strict lenient, string_literal strict 92 lenient (34 :: ascii "\U00110000" ++ [34; 59; 0]) = LGood None [34; 59; 0] [] /\
  string_literal strict 92 lenient (34 :: [0xf4; 0x90; 0x80; 0x80] ++ [34; 59; 0]) = LGood None [34; 59; 0] [].
Proof. exact code_beyond. Qed.
Print Assumptions C32_beyond_refuted.
(* Bytes that are not UTF-8 are taken for a character, here for the end of the string. *)
Theorem C32_overlong_refuted : forall strict lenient, string_literal strict 92 lenient (34 :: [65; 0xc0; 0x80; 66] ++ [34; 59; 0]) = LGood (Some [65; 0; 66]) [59; 0] [] /\
  forall cp, ~ utf8_of cp [0xc0; 0x80].
Proof. exact overlong. Qed.
Print Assumptions C32_overlong_refuted.
(* A text that ends in a single quote is read beyond its end; one that ends in a string with a backslash fails an
   assertion. *)
Theorem C32_quote_refuted : char_literal true 92 [39; 0] = LUndef UBAssert /\ char_literal false 92 [39; 0] = LUndef UBMem.
Proof. exact quote_at_end. Qed.
Print Assumptions C32_quote_refuted.
Theorem C32_slash_refuted : forall lenient, string_literal true 92 lenient [34; 92; 0] = LUndef UBAssert.
Proof. exact slash_at_end. Qed.
Print Assumptions C32_slash_refuted.
