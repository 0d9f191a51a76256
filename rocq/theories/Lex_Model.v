(* Numbers, characters and strings in the compiler's lexer.
   The input is a list of bytes; the text is followed by the terminator 0 of std::string.  A position is the list of the
   bytes from there on, so the end of the text is the list [0]. *)
From Verif Require Import Base Rt_Model.

(* A result, the position after it and the numbers of the messages reported so far (latest first). *)
Inductive lres (A : Type) : Type := LGood (a : A) (rest errs : list Z) | LUndef (u : ub).
Arguments LGood {A} _ _ _. Arguments LUndef {A} _.
Definition lbind {A B : Type} (m : lres A) (k : A -> list Z -> list Z -> lres B) : lres B :=
  match m with LGood a l e => k a l e | LUndef u => LUndef u end.

(* Characters. *)
Definition is_digit (c : Z) : bool := (48 <=? c) && (c <=? 57).                          (* compiler/sci18n.h:37-39 *)
Definition is_newline (c : Z) : bool := (c =? 13) || (c =? 10).                          (* compiler/sci18n.h:33-35 *)
Definition is_space (c : Z) : bool := (c =? 32) || ((9 <=? c) && (c <=? 13)).            (* compiler/sci18n.h:28-31 *)
Definition is_alpha (c : Z) : bool := ((65 <=? c) && (c <=? 90)) || ((97 <=? c) && (c <=? 122)).  (* isalpha, C locale *)
Definition alphanum (c : Z) : bool := is_alpha c || (c =? 95) || (c =? 64) || is_digit c.        (* compiler/lexer.cpp:2446-2464 *)
Definition ishex (c : Z) : bool := is_digit c || ((97 <=? c) && (c <=? 102)) || ((65 <=? c) && (c <=? 70)).  (* compiler/lexer.cpp:2470-2474 *)

(* compiler/lexer.cpp:1879-1885: the value of a digit, or -1. *)
Definition digit_of (c : Z) : Z :=
  if is_digit c then c - 48
  else if (65 <=? c) && (c <=? 70) then c - 65 + 10
  else if (97 <=? c) && (c <=? 102) then c - 97 + 10
  else -1.

Section Lexer.
Variable strict : bool.                 (* assertions are compiled in *)
Variable ctrl : Z.                      (* ctrlchar_, the escape character *)
Variable lenient : bool.                (* the standard library's conversion to UTF-8 takes surrogates *)

(* compiler/lexer.h:262-291: peek, advance, match_char.  Past the terminator there is nothing. *)
Definition peek (l : list Z) : lres Z := match l with [] => LUndef UBMem | c :: _ => LGood c l [] end.
Definition advance (l : list Z) : lres Z :=
  match l with
  | [] => if strict then LUndef UBAssert else LUndef UBMem
  | [c] => if strict then LUndef UBAssert else LGood c [] []
  | c :: rest => LGood c rest []
  end.
Definition match_char (c : Z) (l : list Z) : lres bool :=
  lbind (peek l) (fun x _ _ => if x =? c then lbind (advance l) (fun _ l _ => LGood true l []) else LGood false l []).

Definition U64 : Z := 2 ^ 64.
Inductive token := TNumber (v : Z) | TNumber64 (v : Z) | TFloat (whole : Z).

(* compiler/lexer.cpp:1874-1912: the digits.  [ok]: nothing reported since the digits began. *)
Fixpoint digits (base : Z) (l : list Z) (value n : Z) (errs : list Z) (ok : bool) : lres (Z * Z) :=
  match l with
  | [] => LUndef UBMem
  | c :: rest =>
    let next (k : lres (Z * Z)) := match rest with [] => if strict then LUndef UBAssert else k | _ => k end in
    if c =? 95 then next (digits base rest value n errs ok)
    else
      let d := digit_of c in
      if d <? 0 then LGood (value, n) l errs
      else next (
        if base <=? d then digits base rest value n (if ok then 86 :: errs else errs) false
        else if U64 <=? value * base then LGood (value, n) rest (135 :: errs)
        else if U64 <=? value * base + d then LGood (value * base, n) rest (135 :: errs)
        else digits base rest (value * base + d) (n + 1) errs ok)
  end.

(* compiler/lexer.cpp:1856-1946 lex_number; lex_float's reading of the digits behind the point is not modelled, it is
   represented by the whole part it is given. *)
Definition lex_number (l : list Z) : lres (option token) :=
  lbind (match_char 48 l) (fun zero l _ =>
  lbind (if zero : bool then
           lbind (match_char 98 l) (fun m l _ => if m : bool then LGood (2, 0) l [] else
           lbind (match_char 111 l) (fun m l _ => if m : bool then LGood (8, 0) l [] else
           lbind (match_char 120 l) (fun m l _ => if m : bool then LGood (16, 0) l [] else LGood (10, 1) l [])))
         else LGood (10, 0) l []) (fun bn l _ =>
  let base := fst bn in
  lbind (digits base l 0 (snd bn) [] true) (fun vn l errs =>
  let value := fst vn in let n := snd vn in
  if (base =? 10) && (n =? 0) then LGood None l errs
  else
    lbind (peek l) (fun c _ _ =>
    let errs := if alphanum c then 53 :: errs else if n =? 0 then 424 :: errs else errs in
    let number := if (two32 - 1 <? value) || ((base =? 10) && (two31 - 1 <? value)) then TNumber64 value else TNumber (wrap32 value) in
    if base =? 10 then
      lbind (match_char 46 l) (fun m l2 _ =>
      if m : bool then lbind (peek l2) (fun c _ _ => if is_digit c then LGood (Some (TFloat value)) l2 errs else LGood (Some number) l errs)
      else LGood (Some number) l errs)
    else LGood (Some number) l errs)))).

(* compiler/parse-node.cpp:266-279 Number64Expr::ToInt64 of the decimal text of [v]; [errno]: errno is ERANGE before. *)
Definition I64_MAX : Z := 2 ^ 63 - 1.
Definition to_int64 (errno : bool) (v : Z) : option Z :=
  let '(r, e) := if I64_MAX <? v then (I64_MAX, true) else (v, errno) in
  if (r =? I64_MAX) && e then None else Some r.

(* compiler/lexer.cpp:2568-2602 get_utf8_char: the code point, or -1. *)
Fixpoint leftmost (n : nat) (b : Z) : Z :=          (* ke::FindLeftmostBit32 of a byte *)
  match n with O => 0 | S n' => if Z.testbit b (Z.of_nat n') then Z.of_nat n' else leftmost n' b end.
Fixpoint continuations (n : nat) (result : Z) (l : list Z) : lres Z :=
  match n with
  | O => LGood result l []
  | S n' =>
    lbind (peek l) (fun c _ _ =>
    if negb (Z.land c 0xc0 =? 0x80) then LGood (-1) l []
    else lbind (advance l) (fun _ l _ => continuations n' (wrap32 (Z.lor (Z.shiftl result 6) (Z.land c 0x3f))) l))
  end.
Definition get_utf8_char (l : list Z) : lres Z :=
  lbind (advance l) (fun ch l _ =>
  if ch <=? 0x7f then LGood ch l []
  else
    let inverted := 255 - ch in
    if inverted =? 0 then LGood (-1) l []
    else
      let bit := leftmost 8 inverted in
      if (bit =? 0) || (5 <? bit) then LGood (-1) l []
      else continuations (Z.to_nat (6 - bit)) (Z.land ch (2 ^ bit - 1)) l).

(* compiler/lexer.cpp:2366-2382: up to two hexadecimal digits. *)
Fixpoint hex_escape (n : nat) (c : Z) (l : list Z) : lres Z :=
  match n with
  | O => LGood c l []
  | S n' => lbind (peek l) (fun ch _ _ => if ishex ch then lbind (advance l) (fun _ l _ => hex_escape n' (c * 16 + digit_of ch) l) else LGood c l [])
  end.
(* compiler/lexer.cpp:2383-2403: \u and \U, with [n] digits left. *)
Fixpoint code_escape (n : nat) (c : Z) (l : list Z) : lres Z :=
  match n with
  | O => LGood c l []
  | S n' =>
    let c := wrap32 (Z.shiftl c 4) in
    lbind (peek l) (fun ch _ _ =>
    if digit_of ch <? 0 then LGood c l [27]
    else lbind (advance l) (fun _ l _ => code_escape n' (Z.lor c (digit_of ch)) l))
  end.
(* compiler/lexer.cpp:2417-2427: \ddd; the value and the number of digits. *)
Fixpoint dec_escape (l : list Z) (c n : Z) : lres (Z * Z) :=
  match l with
  | [] => LUndef UBMem
  | ch :: rest =>
    if is_digit ch then
      match rest with
      | [] => if strict then LUndef UBAssert else dec_escape rest (wrap32 (c * 10 + (ch - 48))) (n + 1)
      | _ => dec_escape rest (wrap32 (c * 10 + (ch - 48))) (n + 1)
      end
    else LGood (c, n) l []
  end.

(* compiler/lexer.cpp:2344-2365: the one-letter escapes. *)
Definition letter_escape (ch : Z) : option Z :=
  if ch =? 97 then Some 7 else if ch =? 98 then Some 8 else if ch =? 101 then Some 27 else if ch =? 102 then Some 12
  else if ch =? 110 then Some 10 else if ch =? 114 then Some 13 else if ch =? 116 then Some 9 else if ch =? 118 then Some 11
  else if (ch =? 39) || (ch =? 34) || (ch =? 37) then Some ch else None.

Definition swallow (c : Z) (l : list Z) : lres unit := lbind (match_char c l) (fun _ l _ => LGood tt l []).
(* compiler/lexer.cpp:2441: assert(c >= 0). *)
Definition nonneg (c : Z) (codepoint : bool) (l errs : list Z) : lres (Z * bool) :=
  if strict && (c <? 0) then LUndef UBAssert else LGood (c, codepoint) l errs.

(* compiler/lexer.cpp:2312-2443 litchar; [utf8]: kLitcharUtf8; kLitcharSkipping is never given.  The result: the
   character and *is_codepoint. *)
Definition litchar (utf8 : bool) (l : list Z) : lres (Z * bool) :=
  lbind (match_char ctrl l) (fun esc l1 _ =>
  if negb esc then
    lbind (peek l1) (fun raw _ _ =>
    let plain errs := lbind (advance l1) (fun _ l _ => LGood (raw, false) l errs) in
    if utf8 && (0x7f <? raw) then
      lbind (get_utf8_char l1) (fun c l _ => if 0 <=? c then LGood (c, true) l [] else plain [248])
    else plain [])
  else
    lbind (match_char ctrl l1) (fun again l2 _ =>
    if again then LGood (ctrl, false) l2 []
    else
      lbind (advance l2) (fun ch l3 _ =>
      match letter_escape ch with
      | Some c => nonneg c false l3 []
      | None =>
        if ch =? 120 then
          lbind (hex_escape 2 0 l3) (fun c l _ => lbind (swallow 59 l) (fun _ l _ => nonneg c false l []))
        else if (ch =? 117) || (ch =? 85) then
          lbind (code_escape (if ch =? 117 then 4 else 8) 0 l3) (fun c l errs => nonneg c true l errs)
        else if is_digit ch then
          lbind (dec_escape l2 0 0) (fun cn l _ => lbind (swallow 59 l) (fun _ l _ =>
          let errs := if 3 <? snd cn then [27] else [] in
          if 255 <? fst cn then nonneg 0 false l (27 :: errs) else nonneg (fst cn) false l errs))
        else nonneg 0 false l2 [27]
      end))).

(* compiler/lexer.cpp:1821-1827: a character literal; the recovery after message 27 is left out. *)
Definition char_literal (l : list Z) : lres Z :=
  lbind (advance l) (fun _ l _ =>
  lbind (litchar false l) (fun c l errs =>
  lbind (peek l) (fun q _ _ =>
  if q =? 39 then lbind (advance l) (fun _ l _ => LGood (fst c) l errs) else LGood (fst c) l (27 :: errs)))).

(* compiler/sci18n.cpp:54-64 UnicodeCodepointToUtf8: the standard library's conversion to UTF-8, which throws
   ([None]) beyond the last code point and, in some versions, for surrogates. *)
Definition to_utf8 (cp : Z) : option (list Z) :=
  if negb lenient && (0xd800 <=? cp) && (cp <? 0xe000) then None
  else if cp <? 0x80 then Some [cp]
  else if cp <? 0x800 then Some [0xc0 + cp / 64; 0x80 + cp mod 64]
  else if cp <? 0x10000 then Some [0xe0 + cp / 4096; 0x80 + cp / 64 mod 64; 0x80 + cp mod 64]
  else if cp <? 0x110000 then Some [0xf0 + cp / 262144; 0x80 + cp / 4096 mod 64; 0x80 + cp / 64 mod 64; 0x80 + cp mod 64]
  else None.

(* compiler/lexer.cpp:1221-1231 packedstring_char: the bytes added to the string; [None]: an exception ends the
   compiler. *)
Definition packedstring_char (l : list Z) : lres (option (list Z)) :=
  lbind (litchar true l) (fun c l errs =>
  if fst c <? 0 then LGood (Some []) l errs
  else if snd c then LGood (to_utf8 (u32 (fst c))) l errs
  else LGood (Some [fst c mod 256]) l errs).

(* compiler/lexer.cpp:844-861: the position behind a line continuation at [l], if there is one (compiler/lexer.cpp:665-672, 917-921). *)
Fixpoint skip_blanks (l : list Z) : list Z :=
  match l with [] => [] | c :: rest => if is_space c && negb (is_newline c) then skip_blanks rest else l end.
Definition continuation (l : list Z) : lres (option (list Z)) :=
  lbind (advance l) (fun _ l2 _ =>
  match skip_blanks l2 with
  | [] => LUndef UBMem
  | c :: rest =>
    if negb (is_newline c) then LGood None l []
    else if c =? 13 then lbind (match_char 10 rest) (fun _ l _ => LGood (Some l) l [])
    else LGood (Some rest) rest []
  end).
Fixpoint skip_spaces (l : list Z) : list Z := match l with [] => [] | c :: rest => if is_space c then skip_spaces rest else l end.

(* compiler/lexer.cpp:1184-1219 packedstring, without the strings in triple quotes; [fuel]: how many more characters.
   [None]: an exception. *)
Fixpoint packedstring (fuel : nat) (term : Z) (l : list Z) (data errs : list Z) : lres (option (list Z)) :=
  match fuel with
  | O => LGood (Some data) l errs
  | S fuel' =>
    lbind (peek l) (fun c _ _ =>
    if (c =? term) || (c =? 0) then LGood (Some data) l errs
    else
      let character :=
        if is_newline c then LGood (Some data) l errs
        else lbind (packedstring_char l) (fun b l2 e =>
             match b with None => LGood None l2 (e ++ errs) | Some b => packedstring fuel' term l2 (data ++ b) (e ++ errs) end) in
      if c =? 92 then
        lbind (continuation l) (fun k _ _ => match k with Some l2 => packedstring fuel' term (skip_spaces l2) data errs | None => character end)
      else character)
  end.

(* compiler/lexer.cpp:1948-1958 LexStringLiteral: the string between two double quotes.  A text that begins with three
   quotes goes another way in the code (compiler/lexer.cpp:990-1182), which is not modelled. *)
Definition string_literal (l : list Z) : lres (option (list Z)) :=
  lbind (advance l) (fun _ l1 _ =>
  lbind (packedstring (length l1) 34 l1 [] []) (fun s l2 errs =>
  match s with
  | None => LGood None l2 errs
  | Some _ => lbind (match_char 34 l2) (fun m l3 _ => LGood s l3 (if m : bool then errs else 37 :: errs))
  end)).
End Lexer.
