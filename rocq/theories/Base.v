(* Machine-integer and byte-memory vocabulary shared by every model file.
   Nothing here is specific to sourcepawn: 32/64-bit two's complement wraps and a
   little-endian byte memory. *)
From Coq Require Export ZArith List Bool Lia.
Export ListNotations.
Global Open Scope Z_scope.

(* [cell_t] is int32_t, [ucell_t] is uint32_t (include/sp_vm_types.h:27-31). *)
Definition two31 : Z := 2147483648.
Definition two32 : Z := 4294967296.
Definition two63 : Z := 9223372036854775808.
Definition two64 : Z := 18446744073709551616.

Definition wrap32 (z : Z) : Z := (z + two31) mod two32 - two31.
Definition u32 (z : Z) : Z := z mod two32.
Definition wrap64 (z : Z) : Z := (z + two63) mod two64 - two63.
Definition u64 (z : Z) : Z := z mod two64.

Definition is_i32 (z : Z) : Prop := - two31 <= z < two31.
Definition is_u32 (z : Z) : Prop := 0 <= z < two32.
Definition is_i64 (z : Z) : Prop := - two63 <= z < two63.
Definition is_byte (z : Z) : Prop := 0 <= z < 256.

Definition is_i32b (z : Z) : bool := (- two31 <=? z) && (z <? two31).
Definition is_i64b (z : Z) : bool := (- two63 <=? z) && (z <? two63).

(* ke::IsUint32AddSafe / IsUint32MultiplySafe (third_party/amtl, not in the sandbox; modelled by
   name: the mathematical result fits in 32 bits).  Arguments are converted to uint32_t. *)
Definition u32_add_safe (a b : Z) : bool := u32 a + u32 b <? two32.
Definition u32_mul_safe (a b : Z) : bool := u32 a * u32 b <? two32.

(* Byte [k] of a two's complement integer. *)
Definition byte_of (k v : Z) : Z := (v / 2 ^ (8 * k)) mod 256.

(* A byte memory; bounds are tracked by the users. *)
Definition memory := Z -> Z.

Definition load32 (m : memory) (a : Z) : Z :=
  wrap32 (m a + 256 * m (a + 1) + 65536 * m (a + 2) + 16777216 * m (a + 3)).

Definition store32 (m : memory) (a v : Z) : memory :=
  fun x => if (a <=? x) && (x <? a + 4) then byte_of (x - a) v else m x.

Definition load64 (m : memory) (a : Z) : Z :=
  wrap64 (u32 (load32 m a) + two32 * load32 m (a + 4)).

Definition store64 (m : memory) (a v : Z) : memory :=
  fun x => if (a <=? x) && (x <? a + 8) then byte_of (x - a) v else m x.

(* memset / memmove on the byte memory (memmove reads the source before writing). *)
Definition fill_bytes (m : memory) (a n v : Z) : memory :=
  fun x => if (a <=? x) && (x <? a + n) then v else m x.

Definition move_bytes (m : memory) (dst src n : Z) : memory :=
  fun x => if (dst <=? x) && (x <? dst + n) then m (src + (x - dst)) else m x.

(* Copy a list of host bytes to [a], a+1, ... *)
Fixpoint write_bytes (m : memory) (a : Z) (l : list Z) : memory :=
  match l with
  | [] => m
  | b :: l' => write_bytes (fun x => if x =? a then b else m x) (a + 1) l'
  end.
