(* C32: what literals mean. *)
From Verif Require Import Base Rt_Model Lex_Model.

(* A character with its value in a base, or a separator. *)
Definition digit_char (base c d : Z) : Prop := d < base /\
  ((48 <= c <= 57 /\ d = c - 48) \/ (97 <= c <= 102 /\ d = c - 87) \/ (65 <= c <= 70 /\ d = c - 55)).
(* [text] spells the digits [ds] in a base: '_' may stand anywhere. *)
Inductive spelled (base : Z) : list Z -> list Z -> Prop :=
| sp_end : spelled base [] []
| sp_sep t ds : spelled base t ds -> spelled base (95 :: t) ds
| sp_digit c d t ds : digit_char base c d -> spelled base t ds -> spelled base (c :: t) (d :: ds).
Definition value_of (base : Z) (ds : list Z) : Z := fold_left (fun v d => v * base + d) ds 0.

(* How a number begins in each base. *)
Inductive number_prefix : Z -> list Z -> Prop :=
| np_bin : number_prefix 2 [48; 98] | np_oct : number_prefix 8 [48; 111] | np_hex : number_prefix 16 [48; 120] | np_dec : number_prefix 10 [].

(* The number ends here: no letter, digit, '_' or '@' follows; for decimals, no point with a digit either. *)
Definition number_ends (base : Z) (rest : list Z) : Prop :=
  exists c more, rest = c :: more /\ alphanum c = false /\
    (base = 10 -> c = 46 -> exists c2 more2, more = c2 :: more2 /\ is_digit c2 = false).

(* The token of a number: 32 bits if it fits (decimals as signed, others as unsigned numbers), else 64 bits. *)
Definition token_of (base v : Z) : token :=
  if (v <? two31) || (negb (base =? 10) && (v <? two32)) then TNumber (wrap32 v) else TNumber64 v.

(* Code points (without the surrogates, which are not characters). *)
Definition scalar (cp : Z) : Prop := 0 <= cp < 0x110000 /\ (cp < 0xd800 \/ 0xe000 <= cp).
(* UTF-8, from the standard (RFC 3629): the bytes carry 7, 5+6, 4+6+6 or 3+6+6+6 bits. *)
Inductive utf8_of : Z -> list Z -> Prop :=
| utf8_1 a : 0 <= a < 2 ^ 7 -> utf8_of a [a]
| utf8_2 a b : 2 <= a < 2 ^ 5 -> 0 <= b < 64 -> utf8_of (a * 64 + b) [0xc0 + a; 0x80 + b]
| utf8_3 a b c : 0 <= a < 2 ^ 4 -> 0 <= b < 64 -> 0 <= c < 64 -> 0x800 <= (a * 64 + b) * 64 + c ->
    utf8_of ((a * 64 + b) * 64 + c) [0xe0 + a; 0x80 + b; 0x80 + c]
| utf8_4 a b c d : 0 <= a < 2 ^ 3 -> 0 <= b < 64 -> 0 <= c < 64 -> 0 <= d < 64 -> 0x10000 <= ((a * 64 + b) * 64 + c) * 64 + d < 0x110000 ->
    utf8_of (((a * 64 + b) * 64 + c) * 64 + d) [0xf0 + a; 0x80 + b; 0x80 + c; 0x80 + d].

(* A character of a literal with the backslash as escape character: its text, its value, whether it is a code point, and
   what must not follow it. *)
Definition hex_text (t : list Z) (v : Z) : Prop := exists ds, Forall2 (digit_char 16) t ds /\ v = value_of 16 ds.
Definition dec_text (t : list Z) (v : Z) : Prop := exists ds, Forall2 (digit_char 10) t ds /\ v = value_of 10 ds.
Definition not_next (f : Z -> bool) (rest : list Z) : Prop := exists c more, rest = c :: more /\ f c = false.
Definition BACKSLASH : Z := 92.

Inductive character (utf8 : bool) : list Z -> Z -> bool -> (list Z -> Prop) -> Prop :=
| ch_plain c : 0 < c < 256 -> c <> BACKSLASH -> (utf8 = true -> c < 128) -> character utf8 [c] c false (fun r => r <> [])
| ch_utf8 cp t : utf8 = true -> utf8_of cp t -> 128 <= cp -> character utf8 t cp true (fun r => r <> [])
| ch_letter c v : In (c, v) [(97, 7); (98, 8); (101, 27); (102, 12); (110, 10); (114, 13); (116, 9); (118, 11); (39, 39); (34, 34); (37, 37)] ->
    character utf8 [BACKSLASH; c] v false (fun r => r <> [])
| ch_backslash : character utf8 [BACKSLASH; BACKSLASH] BACKSLASH false (fun r => r <> [])
| ch_hex t v : hex_text t v -> (1 <= length t <= 2)%nat -> character utf8 ([BACKSLASH; 120] ++ t ++ [59]) v false (fun r => r <> [])
| ch_hex_open t v : hex_text t v -> (1 <= length t <= 2)%nat -> 
    character utf8 ([BACKSLASH; 120] ++ t) v false (not_next (fun c => (c =? 59) || ((Z.of_nat (length t) <? 2) && ishex c)))
| ch_u t v : hex_text t v -> length t = 4%nat -> character utf8 ([BACKSLASH; 117] ++ t) v true (fun r => r <> [])
| ch_U t v : hex_text t v -> length t = 8%nat -> v < two31 -> character utf8 ([BACKSLASH; 85] ++ t) v true (fun r => r <> [])
| ch_dec t v : dec_text t v -> (1 <= length t <= 3)%nat -> v < 256 -> character utf8 ([BACKSLASH] ++ t ++ [59]) v false (fun r => r <> [])
| ch_dec_open t v : dec_text t v -> (1 <= length t <= 3)%nat -> v < 256 ->
    character utf8 ([BACKSLASH] ++ t) v false (not_next (fun c => (c =? 59) || is_digit c)).

(* The bytes a character contributes to a string. *)
Definition bytes_of (v : Z) (codepoint : bool) (b : list Z) : Prop := if codepoint then scalar v /\ utf8_of v b else b = [v].

(* A string body: characters one after the other, none of which begins with the closing quote or is a line break, and the
   bytes they stand for.  A backslash at the end of a line joins the next line, without the blanks around the break. *)
Definition blank (c : Z) : Prop := c = 32 \/ c = 9 \/ c = 11 \/ c = 12.
Definition line_break (c : Z) : Prop := c = 10 \/ c = 13.
Inductive body (rest : list Z) : list Z -> list Z -> Prop :=
| body_end : body rest [] []
| body_char t v cp ok b text data : character true t v cp ok -> bytes_of v cp b -> ok (text ++ rest) ->
    (exists c more, t = c :: more /\ c <> 34 /\ ~ line_break c) ->
    body rest text data -> body rest (t ++ text) (b ++ data)
| body_join before br after text data : Forall blank before -> line_break br -> Forall (fun c => blank c \/ line_break c) after ->
    (exists c more, text ++ rest = c :: more /\ ~ blank c /\ ~ line_break c) ->
    body rest text data -> body rest (92 :: before ++ br :: after ++ text) data.

(* Texts that the lexer takes without a message although they are not characters as above: a terminator, \x without
   digits, \U with a number of 32 bits, and byte sequences that are not UTF-8. *)
Inductive misread (utf8 : bool) : list Z -> Prop :=
| mr_nul : misread utf8 [0]
| mr_hex t : t = [] \/ t = [59] -> misread utf8 ([BACKSLASH; 120] ++ t)
| mr_U t v : hex_text t v -> length t = 8%nat -> two31 <= v -> misread utf8 ([BACKSLASH; 85] ++ t)
| mr_utf8 b t : utf8 = true -> 0xc0 <= b < 0xfe -> Forall (fun c => 0x80 <= c < 0xc0) t -> (forall cp, ~ utf8_of cp (b :: t)) -> misread utf8 (b :: t).
