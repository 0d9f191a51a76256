(* Model of the MD5 digest used for plugin hashes: vm/md5/md5.cpp and md5.h.  unsigned int is 32 bits.
   An access outside the 64-byte buffer or outside the caller's input is the outcome None. *)
From Verif Require Import Base.

Definition not32 (x : Z) : Z := two32 - 1 - x.
(* vm/md5/md5.cpp:420-445. *)
Definition rotate_left (x n : Z) : Z := Z.lor (u32 (Z.shiftl x n)) (Z.shiftr x (32 - n)).
Definition fF (x y z : Z) : Z := Z.lor (Z.land x y) (Z.land (not32 x) z).
Definition fG (x y z : Z) : Z := Z.lor (Z.land x z) (Z.land y (not32 z)).
Definition fH (x y z : Z) : Z := Z.lxor (Z.lxor x y) z.
Definition fI (x y z : Z) : Z := Z.lxor y (Z.lor x (not32 z)).

Inductive kind : Type := FF | GG | HH | II.
Definition mix (k : kind) : Z -> Z -> Z -> Z := match k with FF => fF | GG => fG | HH => fH | II => fI end.
(* FF, GG, HH, II, 453-475: the new value of their first argument. *)
Definition step_value (k : kind) (a b c d x s ac : Z) : Z :=
  let a := u32 (a + u32 (u32 (mix k b c d + x) + ac)) in
  u32 (rotate_left a s + b).

(* Which of a, b, c, d are passed, in order. *)
Inductive order : Type := Rabcd | Rdabc | Rcdab | Rbcda.
Definition words := (Z * Z * Z * Z)%type.
Definition row := (kind * order * Z * Z * Z)%type.
Definition exec_row (x : list Z) (w : words) (r : row) : words :=
  let '(a, b, c, d) := w in
  let '(k, o, i, s, ac) := r in
  let xi := nth (Z.to_nat i) x 0 in
  match o with
  | Rabcd => (step_value k a b c d xi s ac, b, c, d)
  | Rdabc => (a, b, c, step_value k d a b c xi s ac)
  | Rcdab => (a, b, step_value k c d a b xi s ac, d)
  | Rbcda => (a, step_value k b c d a xi s ac, c, d)
  end.
(* The 64 lines of MD5::transform, 282-350: macro, argument order, index into x, shift, constant. *)
Definition rows : list row :=
  [ (FF, Rabcd, 0, 7, 0xd76aa478); (FF, Rdabc, 1, 12, 0xe8c7b756);
     (FF, Rcdab, 2, 17, 0x242070db); (FF, Rbcda, 3, 22, 0xc1bdceee);
     (FF, Rabcd, 4, 7, 0xf57c0faf); (FF, Rdabc, 5, 12, 0x4787c62a);
     (FF, Rcdab, 6, 17, 0xa8304613); (FF, Rbcda, 7, 22, 0xfd469501);
     (FF, Rabcd, 8, 7, 0x698098d8); (FF, Rdabc, 9, 12, 0x8b44f7af);
     (FF, Rcdab, 10, 17, 0xffff5bb1); (FF, Rbcda, 11, 22, 0x895cd7be);
     (FF, Rabcd, 12, 7, 0x6b901122); (FF, Rdabc, 13, 12, 0xfd987193);
     (FF, Rcdab, 14, 17, 0xa679438e); (FF, Rbcda, 15, 22, 0x49b40821);
     (GG, Rabcd, 1, 5, 0xf61e2562); (GG, Rdabc, 6, 9, 0xc040b340);
     (GG, Rcdab, 11, 14, 0x265e5a51); (GG, Rbcda, 0, 20, 0xe9b6c7aa);
     (GG, Rabcd, 5, 5, 0xd62f105d); (GG, Rdabc, 10, 9, 0x2441453);
     (GG, Rcdab, 15, 14, 0xd8a1e681); (GG, Rbcda, 4, 20, 0xe7d3fbc8);
     (GG, Rabcd, 9, 5, 0x21e1cde6); (GG, Rdabc, 14, 9, 0xc33707d6);
     (GG, Rcdab, 3, 14, 0xf4d50d87); (GG, Rbcda, 8, 20, 0x455a14ed);
     (GG, Rabcd, 13, 5, 0xa9e3e905); (GG, Rdabc, 2, 9, 0xfcefa3f8);
     (GG, Rcdab, 7, 14, 0x676f02d9); (GG, Rbcda, 12, 20, 0x8d2a4c8a);
     (HH, Rabcd, 5, 4, 0xfffa3942); (HH, Rdabc, 8, 11, 0x8771f681);
     (HH, Rcdab, 11, 16, 0x6d9d6122); (HH, Rbcda, 14, 23, 0xfde5380c);
     (HH, Rabcd, 1, 4, 0xa4beea44); (HH, Rdabc, 4, 11, 0x4bdecfa9);
     (HH, Rcdab, 7, 16, 0xf6bb4b60); (HH, Rbcda, 10, 23, 0xbebfbc70);
     (HH, Rabcd, 13, 4, 0x289b7ec6); (HH, Rdabc, 0, 11, 0xeaa127fa);
     (HH, Rcdab, 3, 16, 0xd4ef3085); (HH, Rbcda, 6, 23, 0x4881d05);
     (HH, Rabcd, 9, 4, 0xd9d4d039); (HH, Rdabc, 12, 11, 0xe6db99e5);
     (HH, Rcdab, 15, 16, 0x1fa27cf8); (HH, Rbcda, 2, 23, 0xc4ac5665);
     (II, Rabcd, 0, 6, 0xf4292244); (II, Rdabc, 7, 10, 0x432aff97);
     (II, Rcdab, 14, 15, 0xab9423a7); (II, Rbcda, 5, 21, 0xfc93a039);
     (II, Rabcd, 12, 6, 0x655b59c3); (II, Rdabc, 3, 10, 0x8f0ccc92);
     (II, Rcdab, 10, 15, 0xffeff47d); (II, Rbcda, 1, 21, 0x85845dd1);
     (II, Rabcd, 8, 6, 0x6fa87e4f); (II, Rdabc, 15, 10, 0xfe2ce6e0);
     (II, Rcdab, 6, 15, 0xa3014314); (II, Rbcda, 13, 21, 0x4e0811a1);
     (II, Rabcd, 4, 6, 0xf7537e82); (II, Rdabc, 11, 10, 0xbd3af235);
     (II, Rcdab, 2, 15, 0x2ad7d2bb); (II, Rbcda, 9, 21, 0xeb86d391) ].

(* MD5::encode and decode, 366-392. *)
Definition encode_word (w : Z) : list Z :=
  [Z.land w 255; Z.land (Z.shiftr w 8) 255; Z.land (Z.shiftr w 16) 255; Z.land (Z.shiftr w 24) 255].
Definition encode (ws : list Z) : list Z := flat_map encode_word ws.
Fixpoint decode (bytes : list Z) : list Z :=
  match bytes with
  | b0 :: b1 :: b2 :: b3 :: r =>
      Z.lor (Z.lor (Z.lor b0 (u32 (Z.shiftl b1 8))) (u32 (Z.shiftl b2 16))) (u32 (Z.shiftl b3 24)) :: decode r
  | _ => []
  end.

(* MD5::transform, 274-361. *)
Definition transform (st : words) (block : list Z) : words :=
  let '(a, b, c, d) := fold_left (exec_row (decode block)) rows st in
  let '(a0, b0, c0, d0) := st in
  (u32 (a0 + a), u32 (b0 + b), u32 (c0 + c), u32 (d0 + d)).

(* vm/md5/md5.h:76-80. *)
Record md5 : Type := { state : words; count0 : Z; count1 : Z; buffer : list Z; digest : list Z; finalized : bool }.
(* MD5::init, 233-246; the buffer starts with arbitrary contents. *)
Definition init (junk : list Z) : md5 :=
  {| state := (0x67452301, 0xefcdab89, 0x98badcfe, 0x10325476); count0 := 0; count1 := 0;
     buffer := junk; digest := []; finalized := false |}.

(* memcpy(buffer + at, input, n), bounds included. *)
Definition into_buffer (buf : list Z) (at_ : Z) (input : list Z) (n : Z) : option (list Z) :=
  if (at_ + n <=? Z.of_nat (length buf)) && (n <=? Z.of_nat (length input))
  then Some (firstn (Z.to_nat at_) buf ++ firstn (Z.to_nat n) input ++ skipn (Z.to_nat (at_ + n)) buf)
  else None.

(* The loop of MD5::update, 89-91. *)
Fixpoint bulk (fuel : nat) (st : words) (input : list Z) (len input_index : Z) : option (words * Z) :=
  if u32 (input_index + 63) <? len then
    match fuel with
    | O => None
    | S n =>
        if input_index + 64 <=? Z.of_nat (length input)
        then bulk n (transform st (firstn 64 (skipn (Z.to_nat input_index) input))) input len (u32 (input_index + 64))
        else None
    end
  else Some (st, input_index).

(* MD5::update, 61-101; the caller passes the input's length. *)
Definition update (m : md5) (input : list Z) : option md5 :=
  if finalized m then Some m
  else
    let len := Z.of_nat (length input) in
    let buffer_index := Z.land (Z.shiftr (count0 m) 3) 63 in
    let bits := u32 (Z.shiftl len 3) in
    let c0 := u32 (count0 m + bits) in
    let c1 := if c0 <? bits then u32 (count1 m + 1) else count1 m in
    let c1 := u32 (c1 + Z.shiftr len 29) in
    let buffer_space := 64 - buffer_index in
    let head :=
      if len >=? buffer_space then
        match into_buffer (buffer m) buffer_index input buffer_space with
        | None => None
        | Some buf =>
            match bulk (S (length input)) (transform (state m) buf) input len buffer_space with
            | None => None
            | Some (st, ii) => Some (buf, st, 0, ii)
            end
        end
      else Some (buffer m, state m, buffer_index, 0) in
    match head with
    | None => None
    | Some (buf, st, bi, ii) =>
        match into_buffer buf bi (skipn (Z.to_nat ii) input) (u32 (len - ii)) with
        | None => None
        | Some buf =>
            Some {| state := st; count0 := c0; count1 := c1; buffer := buf; digest := digest m; finalized := finalized m |}
        end
    end.

(* MD5::finalize, 126-164. *)
Definition PADDING : list Z := 128 :: repeat 0 63.
Definition finalize (m : md5) : option md5 :=
  if finalized m then Some m
  else
    let bits := encode [count0 m; count1 m] in
    let index := Z.land (Z.shiftr (count0 m) 3) 63 in
    let padLen := if index <? 56 then 56 - index else 120 - index in
    match update m (firstn (Z.to_nat padLen) PADDING) with
    | None => None
    | Some m =>
        match update m bits with
        | None => None
        | Some m =>
            let '(a, b, c, d) := state m in
            Some {| state := state m; count0 := count0 m; count1 := count1 m; buffer := 0 :: tl (buffer m);
                    digest := encode [a; b; c; d]; finalized := true |}
        end
    end.

(* A caller: any sequence of MD5::update calls (vm/base-runtime.cpp:144-165 makes one). *)
Fixpoint feed (m : md5) (pieces : list (list Z)) : option md5 :=
  match pieces with [] => Some m | c :: cs => match update m c with Some m' => feed m' cs | None => None end end.
