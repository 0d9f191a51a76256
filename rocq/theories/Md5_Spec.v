(* The published definition of MD5 (RFC 1321), written from its text. *)
From Verif Require Import Base.

(* Steps 1 and 2: append a 1 bit, zero bits up to 448 modulo 512, and the length in bits modulo 2^64,
   low-order byte first. *)
Definition le_bytes (n : nat) (v : Z) : list Z := map (fun k => byte_of (Z.of_nat k) v) (seq 0 n).
Definition padded (m : list Z) : list Z :=
  let len := Z.of_nat (length m) in
  m ++ [128] ++ repeat 0 (Z.to_nat ((55 - len) mod 64)) ++ le_bytes 8 (8 * len).

(* Step 3: the initial value of the buffer A, B, C, D. *)
Definition quad := (Z * Z * Z * Z)%type.
Definition start_value : quad := (0x67452301, 0xefcdab89, 0x98badcfe, 0x10325476).

(* Step 4.  Functions on 32-bit words, bit by bit. *)
Definition bitwise (f : bool -> bool -> bool -> bool) (x y z : Z) : Z :=
  fold_right (fun k acc => (if f (Z.testbit x k) (Z.testbit y k) (Z.testbit z k) then 2 ^ k else 0) + acc) 0
             (map Z.of_nat (seq 0 32)).
Definition round_function (i : Z) : Z -> Z -> Z -> Z :=
  bitwise (if i <? 16 then fun x y z => if x then y else z          (* if X then Y else Z *)
           else if i <? 32 then fun x y z => if z then x else y     (* if Z then X else Y *)
           else if i <? 48 then fun x y z => xorb x (xorb y z)
           else fun x y z => xorb y (orb x (negb z))).
Definition word_index (i : Z) : Z :=
  if i <? 16 then i else if i <? 32 then (5 * i + 1) mod 16 else if i <? 48 then (3 * i + 5) mod 16 else (7 * i) mod 16.
Definition shift_amount (i : Z) : Z :=
  nth (Z.to_nat (4 * (i / 16) + i mod 4)) [7; 12; 17; 22; 5; 9; 14; 20; 4; 11; 16; 23; 6; 10; 15; 21] 0.
(* T[i] of the RFC: the integer part of 4294967296 times abs(sin(i)), i in radians from 1. *)
Definition T : list Z :=
  [ 0xd76aa478; 0xe8c7b756; 0x242070db; 0xc1bdceee;
     0xf57c0faf; 0x4787c62a; 0xa8304613; 0xfd469501;
     0x698098d8; 0x8b44f7af; 0xffff5bb1; 0x895cd7be;
     0x6b901122; 0xfd987193; 0xa679438e; 0x49b40821;
     0xf61e2562; 0xc040b340; 0x265e5a51; 0xe9b6c7aa;
     0xd62f105d; 0x2441453; 0xd8a1e681; 0xe7d3fbc8;
     0x21e1cde6; 0xc33707d6; 0xf4d50d87; 0x455a14ed;
     0xa9e3e905; 0xfcefa3f8; 0x676f02d9; 0x8d2a4c8a;
     0xfffa3942; 0x8771f681; 0x6d9d6122; 0xfde5380c;
     0xa4beea44; 0x4bdecfa9; 0xf6bb4b60; 0xbebfbc70;
     0x289b7ec6; 0xeaa127fa; 0xd4ef3085; 0x4881d05;
     0xd9d4d039; 0xe6db99e5; 0x1fa27cf8; 0xc4ac5665;
     0xf4292244; 0x432aff97; 0xab9423a7; 0xfc93a039;
     0x655b59c3; 0x8f0ccc92; 0xffeff47d; 0x85845dd1;
     0x6fa87e4f; 0xfe2ce6e0; 0xa3014314; 0x4e0811a1;
     0xf7537e82; 0xbd3af235; 0x2ad7d2bb; 0xeb86d391 ].
(* Circular left shift of a 32-bit word. *)
Definition rotl (x s : Z) : Z := (x * 2 ^ s) mod two32 + x / 2 ^ (32 - s).

(* One operation: a = b + ((a + f(b,c,d) + X[k] + T[i]) <<< s), then the roles rotate. *)
Definition operation (x : list Z) (q : quad) (i : Z) : quad :=
  let '(a, b, c, d) := q in
  let sum := (a + round_function i b c d + nth (Z.to_nat (word_index i)) x 0 + nth (Z.to_nat i) T 0) mod two32 in
  (d, (b + rotl sum (shift_amount i)) mod two32, b, c).
Fixpoint le_words (bytes : list Z) : list Z :=
  match bytes with
  | b0 :: b1 :: b2 :: b3 :: r => b0 + 256 * b1 + 65536 * b2 + 16777216 * b3 :: le_words r
  | _ => []
  end.
Definition add_quad (p q : quad) : quad :=
  let '(a, b, c, d) := p in let '(a', b', c', d') := q in
  ((a + a') mod two32, (b + b') mod two32, (c + c') mod two32, (d + d') mod two32).
Definition compress (q : quad) (block : list Z) : quad :=
  add_quad q (fold_left (operation (le_words block)) (map Z.of_nat (seq 0 64)) q).

Fixpoint blocks (n : nat) (m : list Z) : list (list Z) :=
  match n with O => [] | S k => firstn 64 m :: blocks k (skipn 64 m) end.
Definition process (q : quad) (m : list Z) : quad := fold_left compress (blocks (length m / 64) m) q.
(* Step 5. *)
Definition MD5 (m : list Z) : list Z :=
  let '(a, b, c, d) := process start_value (padded m) in flat_map (le_bytes 4) [a; b; c; d].

(* What a caller may pass next, [msg] having been passed so far: bytes, with a length that fits the
   32-bit length argument, and not within 63 bytes of 2^32 unless [msg] is whole blocks. *)
Definition chunk_ok (msg input : list Z) : Prop :=
  Forall is_byte input /\ Z.of_nat (length input) < two32 /\
  (Z.of_nat (length input) <= two32 - 64 \/ (length msg mod 64 = 0)%nat).
Fixpoint chunks_ok (msg : list Z) (pieces : list (list Z)) : Prop :=
  match pieces with [] => True | c :: cs => chunk_ok msg c /\ chunks_ok (msg ++ c) cs end.
