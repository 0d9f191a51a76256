(* Model of the bytecode decoder and interpreter: vm/pcode-reader.h, vm/interpreter.cpp,
   include/smx/smx-v1-opcodes.h, vm/method-info.cpp.

   Floating-point results are not modelled bit-exactly: they are fields of [fenv], so every
   theorem holds for any implementation of them. *)
From Verif Require Import Base Rt_Model Array_Model.

Inductive reg := Pri | Alt.
(* vm/pcode-visitor.h CompareOp. *)
Inductive cmpop := Zero | NotZero | Eq | Neq | Sless | Sleq | Sgrtr | Sgeq.
Inductive bin64 := Mul64 | Add64 | SubAlt64 | Shl64 | Sshr64 | Shr64 | Or64 | And64 | Xor64
                 | DivAlt64 | ModAlt64.
Inductive un64 := Inv64 | Neg64.
(* The internal float opcodes a SYSREQ_N can be replaced by (smx-v1-opcodes.h:235-255). *)
Inductive fstack := FABS | FLOAT | FBIN (n : Z) | FUN (n : Z).
(* FBIN covers FLOATADD/SUB/MUL/DIV, FLOATCMP and the FLOAT_* comparisons (two operands popped);
   FUN covers RND_* and FLOAT_NOT (one operand popped). *)

Inductive instr :=
| NOP | BREAK
| LOAD (r : reg) (a : Z) | LOAD_S (r : reg) (o : Z) | LREF_S (r : reg) (o : Z) | LOAD_I
| LODB_I (w : Z) | CONST (r : reg) (v : Z) | ADDR (r : reg) (o : Z)
| STOR (a : Z) (r : reg) | STOR_S (o : Z) (r : reg) | STOR_S_C (o v : Z) | SREF_S (o : Z) (r : reg)
| STOR_I | STRB_I (w : Z) | LIDX | IDXADDR | MOVE (r : reg) | XCHG
| PUSHR (r : reg) | PUSH_C (l : list Z) | PUSH (l : list Z) | PUSH_S (l : list Z)
| PUSH_ADR (l : list Z) | PUSH_I_I64 | POP (r : reg) | STACK (a : Z) | HEAP (a : Z)
| CVT_I64 (slot : Z) | TRUNCATE_I64 | TEST_I64 | UN64 (op : un64) (slot : Z)
| BIN64 (op : bin64) (slot : Z) | STOR_S_C_I64 (slot c0 c1 : Z) | STOR_S_PRI_I64 (slot : Z)
| ZERO_S_I64 (slot : Z)
| PROC | ENDPROC | RETN | CALL (o : Z) | JUMP (o : Z) | JCMP (c : cmpop) (o : Z)
| SHL | SHR | SSHR | SHL_C (r : reg) (v : Z)
| SMUL | SDIV (r : reg) | SDIV_ALT_I32 | SMOD_ALT_I32 | ADD | SUB | SUB_ALT | AND | OR | XOR
| NOT | NEG | INVERT | ADD_C (v : Z) | SMUL_C (v : Z) | ZEROR (r : reg) | ZERO (a : Z)
| ZERO_S (o : Z)
| CMP (c : cmpop) | CMP64 (c : cmpop) | F32_1 (op : Z) | F32_2 (op : Z)
| EQ_C (r : reg) (v : Z)
| INCR (r : reg) | INC (a : Z) | INC_S (o : Z) | INC_I
| DECR (r : reg) | DEC (a : Z) | DEC_S (o : Z) | DEC_I
| MOVS (n : Z) | MOVE_I64 | FILL (n : Z) | BOUNDS (n : Z)
| SYSREQ_C (n : Z) | SYSREQ_N (n k : Z) | SWAP (r : reg)
| LOAD_BOTH (a b : Z) | LOAD_S_BOTH (a b : Z) | CONSTM (a v : Z) | CONST_S (o v : Z)
| TRACKER_PUSH_C (n : Z) | TRACKER_POP_SETHEAP | GENARRAY (n : Z) (z : bool) | STRADJUST_PRI
| HALT (v : Z) | SWITCH (tbl : Z) | CASETBL (ncases : Z)
| INITARRAY (r : reg) (addr iv copy fill v : Z) | HEAP_SAVE | HEAP_RESTORE.

(* Sizes in cells: include/smx/smx-v1-opcodes.h:36-227; 0 = not an opcode of the ABI.
   CASETBL is variable (-1). *)
Definition opcode_size (op : Z) : Z :=
  match op with
  | 0 => 1
  | 1 | 2 | 3 | 4 | 7 | 8 | 10 | 11 | 12 | 13 | 14 | 15 | 16 | 17 | 18 | 21 | 22 | 24 => 2
  | 19 => 3
  | 9 | 23 | 25 | 27 | 33 | 34 | 35 | 36 | 37 | 42 | 43 | 46 | 48 => 1
  | 39 | 40 | 41 | 44 | 45 | 49 | 51 | 53 | 54 | 55 | 56 | 61 | 62 | 63 | 64 | 68 | 69 => 2
  | 65 | 66 | 67 | 72 | 73 | 74 | 75 | 76 | 78 | 79 | 80 | 81 | 82 | 83 | 84 | 85 | 86 => 1
  | 87 | 88 | 91 | 92 | 93 | 105 | 106 | 109 | 110 | 114 | 115 | 117 | 119 | 120 | 121 | 123 => 2
  | 89 | 90 | 95 | 96 | 101 | 102 | 103 | 104 | 107 | 108 | 111 | 112 | 113 | 116 => 1
  | 129 | 133 => 2
  | 130 => -1
  | 131 | 132 | 134 | 137 => 1
  | 135 | 138 | 139 | 140 | 141 | 154 | 155 | 156 | 157 => 3
  | 142 | 143 | 144 | 145 => 4
  | 146 | 147 | 148 | 149 => 5
  | 150 | 151 | 152 | 153 => 6
  | 160 | 162 | 163 => 2
  | 161 | 164 | 166 | 171 | 172 => 1
  | 169 | 170 => 6
  | 173 | 174 | 175 | 176 | 177 | 178 | 179 | 180 | 181 | 182 | 183 | 184 | 185 | 186 => 1
  | 192 | 193 | 195 | 196 | 206 | 207 | 212 | 213 | 214 | 215 => 1
  | 194 | 197 | 198 | 199 | 200 | 201 | 202 | 203 | 204 | 205 | 208 | 209 | 210 | 216 | 217 => 2
  | 211 => 4
  | _ => 0
  end.

Definition OP_CASETBL : Z := 130.
Definition OP_PROC : Z := 46.
Definition OP_ENDPROC : Z := 166.

Definition cell_at (code : list Z) (i : Z) : Z := if i <? 0 then 0 else nth (Z.to_nat i) code 0.

(* vm/opcodes.cpp:46-50 GetCaseTableSize and kOpcodeSizes: size in cells of the instruction at
   cell [pc]. *)
Definition insn_size (code : list Z) (pc : Z) : Z :=
  let op := cell_at code pc in
  if op =? OP_CASETBL then wrap32 (cell_at code (pc + 1) * 2 + 3) else opcode_size op.

(* vm/pcode-reader.h:111-752 visitOp, as a decoder of the instruction at cell [pc]. *)
Definition decode (code : list Z) (pc : Z) : option instr :=
  let p k := cell_at code (pc + k) in
  match cell_at code pc with
  | 1 => Some (LOAD Pri (p 1)) | 2 => Some (LOAD Alt (p 1))
  | 3 => Some (LOAD_S Pri (p 1)) | 4 => Some (LOAD_S Alt (p 1))
  | 7 => Some (LREF_S Pri (p 1)) | 8 => Some (LREF_S Alt (p 1))
  | 9 => Some LOAD_I | 10 => Some (LODB_I (p 1))
  | 11 => Some (CONST Pri (p 1)) | 12 => Some (CONST Alt (p 1))
  | 13 => Some (ADDR Pri (p 1)) | 14 => Some (ADDR Alt (p 1))
  | 15 => Some (STOR (p 1) Pri) | 16 => Some (STOR (p 1) Alt)
  | 17 => Some (STOR_S (p 1) Pri) | 18 => Some (STOR_S (p 1) Alt)
  | 19 => Some (STOR_S_C (p 1) (p 2))
  | 21 => Some (SREF_S (p 1) Pri) | 22 => Some (SREF_S (p 1) Alt)
  | 23 => Some STOR_I | 24 => Some (STRB_I (p 1)) | 25 => Some LIDX | 27 => Some IDXADDR
  | 33 => Some (MOVE Pri) | 34 => Some (MOVE Alt) | 35 => Some XCHG
  | 36 => Some (PUSHR Pri) | 37 => Some (PUSHR Alt)
  | 39 => Some (PUSH_C [p 1]) | 40 => Some (PUSH [p 1]) | 41 => Some (PUSH_S [p 1])
  | 42 => Some (POP Pri) | 43 => Some (POP Alt)
  | 44 => Some (STACK (p 1)) | 45 => Some (HEAP (p 1)) | 46 => Some PROC | 48 => Some RETN
  | 49 => Some (CALL (p 1)) | 51 => Some (JUMP (p 1))
  | 53 => Some (JCMP Zero (p 1)) | 54 => Some (JCMP NotZero (p 1))
  | 55 => Some (JCMP Eq (p 1)) | 56 => Some (JCMP Neq (p 1))
  | 61 => Some (JCMP Sless (p 1)) | 62 => Some (JCMP Sleq (p 1))
  | 63 => Some (JCMP Sgrtr (p 1)) | 64 => Some (JCMP Sgeq (p 1))
  | 65 => Some SHL | 66 => Some SHR | 67 => Some SSHR
  | 68 => Some (SHL_C Pri (p 1)) | 69 => Some (SHL_C Alt (p 1))
  | 72 => Some SMUL | 73 => Some (SDIV Pri) | 74 => Some (SDIV Alt)
  | 75 => Some SDIV_ALT_I32 | 76 => Some SMOD_ALT_I32
  | 78 => Some ADD | 79 => Some SUB | 80 => Some SUB_ALT | 81 => Some AND | 82 => Some OR
  | 83 => Some XOR | 84 => Some NOT | 85 => Some NEG | 86 => Some INVERT
  | 87 => Some (ADD_C (p 1)) | 88 => Some (SMUL_C (p 1))
  | 89 => Some (ZEROR Pri) | 90 => Some (ZEROR Alt) | 91 => Some (ZERO (p 1))
  | 92 => Some (ZERO_S (p 1)) | 93 => Some (ZERO_S_I64 (p 1))
  | 95 => Some (CMP Eq) | 96 => Some (CMP Neq) | 101 => Some (CMP Sless)
  | 102 => Some (CMP Sleq) | 103 => Some (CMP Sgrtr) | 104 => Some (CMP Sgeq)
  | 105 => Some (EQ_C Pri (p 1)) | 106 => Some (EQ_C Alt (p 1))
  | 107 => Some (INCR Pri) | 108 => Some (INCR Alt) | 109 => Some (INC (p 1))
  | 110 => Some (INC_S (p 1)) | 111 => Some INC_I
  | 112 => Some (DECR Pri) | 113 => Some (DECR Alt) | 114 => Some (DEC (p 1))
  | 115 => Some (DEC_S (p 1)) | 116 => Some DEC_I
  | 117 => Some (MOVS (p 1)) | 119 => Some (FILL (p 1)) | 120 => Some (HALT (p 1))
  | 121 => Some (BOUNDS (p 1)) | 123 => Some (SYSREQ_C (p 1))
  | 129 => Some (SWITCH (p 1)) | 130 => Some (CASETBL (p 1))
  | 131 => Some (SWAP Pri) | 132 => Some (SWAP Alt)
  | 133 => Some (PUSH_ADR [p 1]) | 134 => Some NOP | 135 => Some (SYSREQ_N (p 1) (p 2))
  | 137 => Some BREAK
  | 138 => Some (PUSH_C [p 1; p 2]) | 139 => Some (PUSH [p 1; p 2])
  | 140 => Some (PUSH_S [p 1; p 2]) | 141 => Some (PUSH_ADR [p 1; p 2])
  | 142 => Some (PUSH_C [p 1; p 2; p 3]) | 143 => Some (PUSH [p 1; p 2; p 3])
  | 144 => Some (PUSH_S [p 1; p 2; p 3]) | 145 => Some (PUSH_ADR [p 1; p 2; p 3])
  | 146 => Some (PUSH_C [p 1; p 2; p 3; p 4]) | 147 => Some (PUSH [p 1; p 2; p 3; p 4])
  | 148 => Some (PUSH_S [p 1; p 2; p 3; p 4]) | 149 => Some (PUSH_ADR [p 1; p 2; p 3; p 4])
  | 150 => Some (PUSH_C [p 1; p 2; p 3; p 4; p 5]) | 151 => Some (PUSH [p 1; p 2; p 3; p 4; p 5])
  | 152 => Some (PUSH_S [p 1; p 2; p 3; p 4; p 5])
  | 153 => Some (PUSH_ADR [p 1; p 2; p 3; p 4; p 5])
  | 154 => Some (LOAD_BOTH (p 1) (p 2)) | 155 => Some (LOAD_S_BOTH (p 1) (p 2))
  | 156 => Some (CONSTM (p 1) (p 2)) | 157 => Some (CONST_S (p 1) (p 2))
  | 160 => Some (TRACKER_PUSH_C (p 1)) | 161 => Some TRACKER_POP_SETHEAP
  | 162 => Some (GENARRAY (p 1) false) | 163 => Some (GENARRAY (p 1) true)
  | 164 => Some STRADJUST_PRI | 166 => Some ENDPROC
  | 169 => Some (INITARRAY Pri (p 1) (p 2) (p 3) (p 4) (p 5))
  | 170 => Some (INITARRAY Alt (p 1) (p 2) (p 3) (p 4) (p 5))
  | 171 => Some HEAP_SAVE | 172 => Some HEAP_RESTORE
  | 173 => Some (F32_1 173) | 174 => Some (F32_1 174) | 175 => Some (F32_2 175)
  | 176 => Some (F32_2 176) | 177 => Some (F32_2 177) | 178 => Some (F32_2 178)
  | 179 => Some (F32_2 179) | 180 => Some (F32_2 180) | 181 => Some (F32_2 181)
  | 182 => Some (F32_2 182) | 183 => Some (F32_2 183) | 184 => Some (F32_2 184)
  | 185 => Some (F32_1 185) | 186 => Some (F32_2 186)
  | 192 => Some MOVE_I64 | 193 => Some PUSH_I_I64 | 194 => Some (CVT_I64 (p 1))
  | 195 => Some TRUNCATE_I64 | 196 => Some TEST_I64
  | 197 => Some (UN64 Inv64 (p 1)) | 198 => Some (UN64 Neg64 (p 1))
  | 199 => Some (BIN64 Mul64 (p 1)) | 200 => Some (BIN64 DivAlt64 (p 1))
  | 201 => Some (BIN64 Add64 (p 1)) | 202 => Some (BIN64 SubAlt64 (p 1))
  | 203 => Some (BIN64 Shl64 (p 1)) | 204 => Some (BIN64 Sshr64 (p 1))
  | 205 => Some (BIN64 Shr64 (p 1))
  | 206 => Some (CMP64 Eq) | 207 => Some (CMP64 Neq)
  | 208 => Some (BIN64 Or64 (p 1)) | 209 => Some (BIN64 And64 (p 1))
  | 210 => Some (BIN64 Xor64 (p 1)) | 211 => Some (STOR_S_C_I64 (p 1) (p 2) (p 3))
  | 212 => Some (CMP64 Sless) | 213 => Some (CMP64 Sleq) | 214 => Some (CMP64 Sgrtr)
  | 215 => Some (CMP64 Sgeq) | 216 => Some (BIN64 ModAlt64 (p 1))
  | 217 => Some (STOR_S_PRI_I64 (p 1))
  | _ => None
  end.

(* Interpreter::regs_ (vm/interpreter.h:37-57) together with the plugin memory. *)
Record ist := mkIst { rts : rt; pri : Z; alt : Z }.
Notation IM A := (ist -> res ist A).

Definition lift {A} (m : RM A) : IM A := fun s =>
  match m (rts s) with
  | Ok a r => Ok a (mkIst r (pri s) (alt s))
  | Fail e r => Fail e (mkIst r (pri s) (alt s))
  | UB u => UB u
  end.
Definition getr (r : reg) : IM Z := fun s => Ok (match r with Pri => pri s | Alt => alt s end) s.
Definition setr (r : reg) (v : Z) : IM unit := fun s =>
  Ok tt (match r with Pri => mkIst (rts s) v (alt s) | Alt => mkIst (rts s) (pri s) v end).

(* Method data the interpreter needs: vm/method-info.cpp:57-82 (local_offsets_; typed stack flag,
   i.e. code version >= 14). *)
Record meth := mkMeth { typed : bool; local_offsets : list Z }.

(* vm/method-info.cpp:68-76 StackOffset.  local_offsets_.at(slot) on a slot out of range violates
   the bound; [slots_ok] below turns every such use into [UBMem]. *)
Definition StackOffset (mi : meth) (slot : Z) : Z :=
  if negb (typed mi) then slot
  else if slot <? 0 then wrap32 ((- slot - 1 + 3) * 4)
  else nth (Z.to_nat slot) (local_offsets mi) 0.

(* vm/method-info.cpp:78-82. *)
Definition StackSizeForLocalSlots (mi : meth) : Z := last (local_offsets mi) 0.

(* Natives: vm/interpreter.cpp:90-110.  [n_fn] is the bound host function (None = unbound): an
   arbitrary transformer of the plugin state that may report an error.  [n_repl] is the float
   opcode a bound, non-optional, non-ephemeral native is replaced by (pcode-reader.h:598-604). *)
Record native := mkNative { n_fn : option (RM Z); n_repl : option fstack }.

Record fenv := mkFenv {
  f1 : Z -> Z -> Z;          (* unary float opcodes on the cell in PRI *)
  f2 : Z -> Z -> Z -> Z;     (* binary float opcodes on PRI, ALT *)
  fcvt : Z -> Z;             (* FLOAT *)
  fbin : Z -> Z -> Z -> Z;   (* popped left, right *)
  fun1 : Z -> Z -> Z
}.

(* Integer arithmetic policy: [strict] reports C++ signed overflow as undefined behaviour. *)
Definition sarith (strict : bool) (z : Z) : IM Z :=
  if is_i32b z then ret z else if strict then undef UBArith else ret (wrap32 z).
Definition sarith64 (strict : bool) (z : Z) : IM Z :=
  if is_i64b z then ret z else if strict then undef UBArith else ret (wrap64 z).

(* Shift counts outside the width are undefined in C++ (vm/interpreter.cpp:571-596). *)
Definition shl32 (x n : Z) : IM Z :=
  if (0 <=? n) && (n <? 32) then ret (wrap32 (Z.shiftl x n)) else undef UBArith.
Definition sshr32 (x n : Z) : IM Z :=
  if (0 <=? n) && (n <? 32) then ret (Z.shiftr x n) else undef UBArith.
Definition shr32 (x n : Z) : IM Z :=
  if (0 <=? n) && (n <? 32) then ret (wrap32 (Z.shiftr (u32 x) n)) else undef UBArith.

Definition eval_cmp (c : cmpop) (p a : Z) : bool :=
  match c with
  | Zero => p =? 0 | NotZero => negb (p =? 0)
  | Eq => p =? a | Neq => negb (p =? a)
  | Sless => p <? a | Sleq => p <=? a | Sgrtr => p >? a | Sgeq => p >=? a
  end.
Definition b2z (b : bool) : Z := if b then 1 else 0.

(* vm/interpreter.cpp:507-569: the division check shared by SDIV*, SMOD*. *)
Definition check_div (dividend divisor : Z) : IM unit :=
  if divisor =? 0 then fail DIVIDE_BY_ZERO
  else if (divisor =? -1) && (dividend =? - two31) then fail INTEGER_OVERFLOW
  else ret tt.

(* 64-bit operations: vm/interpreter.cpp:1061-1290, vm/runtime-helpers.cpp Int64Div/Int64Mod. *)
Definition check_div64 (dividend divisor : Z) : IM unit :=
  if divisor =? 0 then fail DIVIDE_BY_ZERO
  else if (divisor =? -1) && (dividend =? - two63) then fail INTEGER_OVERFLOW
  else ret tt.
Definition shift_ok64 (n : Z) : bool := (0 <=? n) && (n <? 64).
Definition eval_bin64 (strict : bool) (op : bin64) (p a : Z) : IM Z :=
  match op with
  | Mul64 => sarith64 strict (p * a)
  | Add64 => sarith64 strict (p + a)
  | SubAlt64 => sarith64 strict (a - p)
  | Shl64 => if shift_ok64 a then ret (wrap64 (Z.shiftl p a)) else undef UBArith
  | Sshr64 => if shift_ok64 a then ret (Z.shiftr p a) else undef UBArith
  | Shr64 => if shift_ok64 a then ret (wrap64 (Z.shiftr (u64 p) a)) else undef UBArith
  | Or64 => ret (Z.lor p a)
  | And64 => ret (Z.land p a)
  | Xor64 => ret (Z.lxor p a)
  | DivAlt64 => check_div64 a p;;; ret (Z.quot a p)
  | ModAlt64 => check_div64 a p;;; ret (Z.rem a p)
  end.

Section Exec.
Variable strict : bool.
Variable fe : fenv.
Variable natives : Z -> option native.
Variable mi : meth.

Definition so (o : Z) : Z := StackOffset mi o.

(* The operands an instruction passes to StackOffset. *)
Definition instr_slots (i : instr) : list Z :=
  match i with
  | LOAD_S _ o | LREF_S _ o | ADDR _ o | STOR_S o _ | STOR_S_C o _ | SREF_S o _ | ZERO_S o
  | INC_S o | DEC_S o | CONST_S o _ | CVT_I64 o | UN64 _ o | BIN64 _ o | STOR_S_C_I64 o _ _
  | STOR_S_PRI_I64 o | ZERO_S_I64 o => [o]
  | LOAD_S_BOTH a b => [a; b]
  | PUSH_S l | PUSH_ADR l => l
  | _ => []
  end.
(* FixedArray::at(slot) is in range for each of them. *)
Definition slots_ok (i : instr) : bool :=
  negb (typed mi) ||
  forallb (fun o => o <? Z.of_nat (length (local_offsets mi))) (instr_slots i).

Fixpoint push_list (l : list Z) : RM unit :=
  match l with [] => ret tt | v :: l' => pushStack v;;; push_list l' end.
Fixpoint push_cells (l : list Z) : RM unit :=
  match l with [] => ret tt | a :: l' => v <- getCellValue a;; pushStack v;;; push_cells l' end.
Fixpoint push_frame (l : list Z) : RM unit :=
  match l with [] => ret tt | o :: l' => v <- getFrameValue (so o);; pushStack v;;; push_frame l' end.
Fixpoint push_adr (l : list Z) : RM unit :=
  match l with
  | [] => ret tt
  | o :: l' => f <- get frm;; pushStack (wrap32 (f + so o));;; push_adr l'
  end.
Fixpoint pop_n (n : nat) : RM unit :=
  match n with O => ret tt | S n' => popStack;;; pop_n n' end.

(* vm/interpreter.cpp:661-669: dest[i] = pri for i < amount/4, sequentially. *)
Definition fill (a n v : Z) : RM unit := fill_cells (Z.to_nat (n / 4)) a v.

(* vm/interpreter.cpp:90-110 invokeNative; sp_ and hp_ are restored afterwards. *)
Definition invokeNative (n : Z) : IM unit :=
  match natives n with
  | None => undef UBMem
  | Some nt =>
    match n_fn nt with
    | None => fail INVALID_NATIVE
    | Some f => fun s =>
      match f (rts s) with
      | Ok v r => Ok tt (mkIst (set_hp (hp (rts s)) (set_sp (sp (rts s)) r)) v (alt s))
      | Fail e r => Fail e (mkIst (set_hp (hp (rts s)) (set_sp (sp (rts s)) r)) (pri s) (alt s))
      | UB u => UB u
      end
    end
  end.

(* vm/interpreter.cpp:794-976: float opcodes standing in for a native call; operands come from
   the stack. *)
Definition exec_fstack (f : fstack) : IM unit :=
  match f with
  | FABS => v <- lift popStack;; setr Pri (Z.land v 2147483647)
  | FLOAT => v <- lift popStack;; setr Pri (fcvt fe v)
  | FBIN n => l <- lift popStack;; r <- lift popStack;; setr Pri (fbin fe n l r)
  | FUN n => v <- lift popStack;; setr Pri (fun1 fe n v)
  end.

(* All instructions except those that move the instruction pointer (RETN, CALL, JUMP, JCMP,
   SWITCH, PROC, ENDPROC), which [step] handles.  Each case models the visit method of the same
   name in vm/interpreter.cpp:122-1443.  BREAK is modelled with the
   debugger disabled (interpreter.cpp:1027-1035).  A left shift of a negative value is given its
   C++20 meaning. *)
Definition exec (i : instr) : IM unit :=
  match i with
  | NOP | BREAK => ret tt
  | LOAD r a => v <- lift (getCellValue a);; setr r v
  | LOAD_S r o => v <- lift (getFrameValue (so o));; setr r v
  | LREF_S r o => a <- lift (getFrameValue (so o));; v <- lift (getCellValue a);; setr r v
  | LOAD_I => p <- getr Pri;; v <- lift (getCellValue p);; setr Pri v
  | LODB_I w =>
      p <- getr Pri;; v <- lift (getCellValue p);;
      (if w =? 1 then setr Pri (Z.land v 255)
       else if w =? 2 then setr Pri (Z.land v 65535)
       else if w =? 4 then setr Pri v
       else undef UBAssert)
  | CONST r v => setr r v
  | ADDR r o => f <- lift (get frm);; setr r (wrap32 (f + so o))
  | STOR a r => v <- getr r;; lift (setCellValue a v)
  | STOR_S o r => v <- getr r;; lift (setFrameValue (so o) v)
  | STOR_S_C o v => lift (setFrameValue (so o) v)
  | SREF_S o r => a <- lift (getFrameValue (so o));; v <- getr r;; lift (setCellValue a v)
  | STOR_I => a <- getr Alt;; v <- getr Pri;; lift (setCellValue a v)
  | STRB_I w =>
      a <- getr Alt;; v <- getr Pri;; p <- lift (throwIfBadAddress a);;
      (if w =? 1 then lift (wr8 p v)
       else if w =? 2 then lift (wr16 p v)
       else if w =? 4 then lift (wr32 p v)
       else undef UBAssert)
  | LIDX => p <- getr Pri;; a <- getr Alt;; v <- lift (getCellValue (wrap32 (a + p * 4)));; setr Pri v
  | IDXADDR => p <- getr Pri;; a <- getr Alt;; setr Pri (wrap32 (a + p * 4))
  | MOVE Pri => v <- getr Alt;; setr Pri v
  | MOVE Alt => v <- getr Pri;; setr Alt v
  | XCHG => p <- getr Pri;; a <- getr Alt;; setr Pri a;;; setr Alt p
  | PUSHR r => v <- getr r;; lift (pushStack v)
  | PUSH_C l => lift (push_list l)
  | PUSH l => lift (push_cells l)
  | PUSH_S l => lift (push_frame l)
  | PUSH_ADR l => lift (push_adr l)
  | PUSH_I_I64 =>
      p <- getr Pri;;
      lift (src <- acquireAddrRange p 8;;
            v1 <- rd32 (src + 4);; pushStack v1;;;
            v0 <- rd32 src;; pushStack v0)
  | POP r => v <- lift popStack;; setr r v
  | STACK a => lift (addStack a)
  | HEAP a => v <- lift (heapAlloc a);; setr Alt v
  | CVT_I64 slot =>
      p <- getr Pri;;
      a <- lift (d <- acquireInt64Slot (so slot);; wr64 d p;;; f <- get frm;; ret (wrap32 (f + so slot)));;
      setr Pri a
  | TRUNCATE_I64 => p <- getr Pri;; v <- lift (a <- acquireInt64Addr p;; rd64 a);; setr Pri (wrap32 v)
  | TEST_I64 => p <- getr Pri;; v <- lift (a <- acquireInt64Addr p;; rd64 a);; setr Pri (b2z (negb (v =? 0)))
  | UN64 op slot =>
      p <- getr Pri;;
      src <- lift (acquireInt64Addr p);;
      d <- lift (acquireInt64Slot (so slot));;
      v <- lift (rd64 src);;
      w <- (match op with Inv64 => ret (Z.lnot v) | Neg64 => sarith64 strict (- v) end);;
      lift (wr64 d w);;;
      f <- lift (get frm);; setr Pri (wrap32 (f + so slot))
  | BIN64 op slot =>
      p <- getr Pri;;
      pp <- lift (acquireInt64Addr p);;
      a <- getr Alt;;
      pa <- lift (acquireInt64Addr a);;
      d <- lift (acquireInt64Slot (so slot));;
      vp <- lift (rd64 pp);;
      va <- lift (rd64 pa);;
      w <- eval_bin64 strict op vp va;;
      lift (wr64 d w);;;
      f <- lift (get frm);; setr Pri (wrap32 (f + so slot))
  | STOR_S_C_I64 slot c0 c1 =>
      lift (d <- acquireInt64Slot (so slot);; wr64 d (wrap64 (u32 c0 + two32 * c1)))
  | STOR_S_PRI_I64 slot =>
      p <- getr Pri;;
      lift (src <- acquireInt64Addr p;; d <- acquireInt64Slot (so slot);;
            v <- rd64 src;; wr64 d v)
  | ZERO_S_I64 slot =>
      lift (setFrameValue (so slot) 0;;; setFrameValue (wrap32 (so slot + 4)) 0)
  | SHL => p <- getr Pri;; a <- getr Alt;; v <- shl32 p a;; setr Pri v
  | SHR => p <- getr Pri;; a <- getr Alt;; v <- shr32 p a;; setr Pri v
  | SSHR => p <- getr Pri;; a <- getr Alt;; v <- sshr32 p a;; setr Pri v
  | SHL_C r n => p <- getr r;; v <- shl32 p n;; setr r v
  | SMUL => p <- getr Pri;; a <- getr Alt;; v <- sarith strict (p * a);; setr Pri v
  | SDIV r =>
      p <- getr Pri;; a <- getr Alt;;
      let dividend := match r with Pri => p | Alt => a end in
      let divisor := match r with Pri => a | Alt => p end in
      check_div dividend divisor;;;
      setr Pri (Z.quot dividend divisor);;; setr Alt (Z.rem dividend divisor)
  | SDIV_ALT_I32 =>
      divisor <- getr Pri;; dividend <- getr Alt;;
      check_div dividend divisor;;; setr Pri (Z.quot dividend divisor)
  | SMOD_ALT_I32 =>
      divisor <- getr Pri;; dividend <- getr Alt;;
      check_div dividend divisor;;; setr Pri (Z.rem dividend divisor)
  | ADD => p <- getr Pri;; a <- getr Alt;; v <- sarith strict (p + a);; setr Pri v
  | SUB => p <- getr Pri;; a <- getr Alt;; v <- sarith strict (p - a);; setr Pri v
  | SUB_ALT => p <- getr Pri;; a <- getr Alt;; v <- sarith strict (a - p);; setr Pri v
  | AND => p <- getr Pri;; a <- getr Alt;; setr Pri (Z.land p a)
  | OR => p <- getr Pri;; a <- getr Alt;; setr Pri (Z.lor p a)
  | XOR => p <- getr Pri;; a <- getr Alt;; setr Pri (Z.lxor p a)
  | NOT => p <- getr Pri;; setr Pri (b2z (p =? 0))
  | NEG => p <- getr Pri;; v <- sarith strict (- p);; setr Pri v
  | INVERT => p <- getr Pri;; setr Pri (Z.lnot p)
  | ADD_C c => p <- getr Pri;; v <- sarith strict (p + c);; setr Pri v
  | SMUL_C c => p <- getr Pri;; v <- sarith strict (p * c);; setr Pri v
  | ZEROR r => setr r 0
  | ZERO a => lift (setCellValue a 0)
  | ZERO_S o => lift (setFrameValue (so o) 0)
  | CMP c => p <- getr Pri;; a <- getr Alt;; setr Pri (b2z (eval_cmp c p a))
  | CMP64 c =>
      p <- getr Pri;; pp <- lift (acquireInt64Addr p);;
      a <- getr Alt;; pa <- lift (acquireInt64Addr a);;
      vp <- lift (rd64 pp);; va <- lift (rd64 pa);;
      setr Pri (b2z (eval_cmp c vp va))
  | F32_1 op => p <- getr Pri;; setr Pri (f1 fe op p)
  | F32_2 op => p <- getr Pri;; a <- getr Alt;; setr Pri (f2 fe op p a)
  | EQ_C r v => x <- getr r;; setr Pri (b2z (x =? v))
  | INCR r => x <- getr r;; v <- sarith strict (x + 1);; setr r v
  | DECR r => x <- getr r;; v <- sarith strict (x - 1);; setr r v
  | INC a => p <- lift (throwIfBadAddress a);; x <- lift (rd32 p);; v <- sarith strict (x + 1);; lift (wr32 p v)
  | DEC a => p <- lift (throwIfBadAddress a);; x <- lift (rd32 p);; v <- sarith strict (x - 1);; lift (wr32 p v)
  | INC_S o => x <- lift (getFrameValue (so o));; v <- sarith strict (x + 1);; lift (setFrameValue (so o) v)
  | DEC_S o => x <- lift (getFrameValue (so o));; v <- sarith strict (x - 1);; lift (setFrameValue (so o) v)
  | INC_I => a <- getr Pri;; p <- lift (throwIfBadAddress a);; x <- lift (rd32 p);; v <- sarith strict (x + 1);; lift (wr32 p v)
  | DEC_I => a <- getr Pri;; p <- lift (throwIfBadAddress a);; x <- lift (rd32 p);; v <- sarith strict (x - 1);; lift (wr32 p v)
  | MOVS n =>
      p <- getr Pri;; src <- lift (acquireAddrRange p (u32 n));;
      a <- getr Alt;; dst <- lift (acquireAddrRange a (u32 n));;
      lift (move dst src (u32 n))
  | MOVE_I64 =>
      p <- getr Pri;; src <- lift (acquireAddrRange p 8);;
      a <- getr Alt;; dst <- lift (acquireAddrRange a 8);;
      v <- lift (rd64 src);; lift (wr64 dst v)
  | FILL n =>
      a <- getr Alt;; dst <- lift (acquireAddrRange a (u32 n));;
      v <- getr Pri;; lift (fill dst (u32 n) v)
  | BOUNDS n =>
      (* size_t(pri) > limit, limit a uint32_t: a negative pri is a huge size_t *)
      p <- getr Pri;; if u64 p >? u32 n then fail ARRAY_BOUNDS else ret tt
  | SYSREQ_C n => invokeNative n
  | SYSREQ_N n k =>
      match natives n with
      | None => undef UBMem
      | Some nt =>
        match n_fn nt, n_repl nt with
        | Some _, Some f => exec_fstack f
        | _, _ =>
          lift (pushStack k);;; invokeNative n;;; lift (pop_n (Z.to_nat (u32 (k + 1))))
        end
      end
  | SWAP r => x <- getr r;; v <- lift popStack;; setr r v;;; lift (pushStack x)
  | LOAD_BOTH a b => v <- lift (getCellValue a);; setr Pri v;;; w <- lift (getCellValue b);; setr Alt w
  | LOAD_S_BOTH a b => v <- lift (getFrameValue (so a));; setr Pri v;;; w <- lift (getFrameValue (so b));; setr Alt w
  | CONSTM a v => lift (setCellValue a v)
  | CONST_S o v => lift (setFrameValue (so o) v)
  | TRACKER_PUSH_C n => lift (pushTracker n)
  | TRACKER_POP_SETHEAP => lift popTrackerAndSetHeap
  | GENARRAY n z =>
      lift (a <- get sp;; stk <- acquireAddrRange a (u32 (n * 4));;
            generateArray n stk z;;;
            pop_n (Z.to_nat (u32 (n - 1))))
  | STRADJUST_PRI => p <- getr Pri;; v <- sarith strict (p + 4);; setr Pri (Z.shiftr v 2)
  | HALT _ => fail INVALID_INSTRUCTION
  | CASETBL _ => ret tt
  | INITARRAY r a iv cp fl v => x <- getr r;; lift (initArray x a iv cp fl v)
  | HEAP_SAVE => lift enterHeapScope
  | HEAP_RESTORE => lift leaveHeapScope
  | PROC | ENDPROC | RETN | CALL _ | JUMP _ | JCMP _ _ | SWITCH _ => undef UBAssert
  end.

End Exec.

(* One activation of Interpreter::run (vm/interpreter.cpp:57-84); the C++ recursion
   Run -> visitCALL -> Run is the list of suspended callers. *)
Record act := mkAct { a_meth : meth; a_pc : Z; a_pri : Z; a_alt : Z }.
Record config := mkConfig { c_rt : rt; c_cur : act; c_callers : list act }.

Record prog := mkProg {
  p_code : list Z;
  p_natives : Z -> option native;
  (* AcquireMethod + Validate (plugin-runtime.cpp:244-273, method-info.h:39-44, method-info.cpp:42-55) for a call
     target: the method data, or the error reported *)
  p_validate : Z -> meth + err
}.

Inductive outcome :=
| Next (polled : bool) (c : config)     (* [polled]: the watchdog was consulted *)
| Done (v : Z) (r : rt)
| Stop (e : err) (r : rt)
| Undef (u : ub).

(* vm/interpreter.cpp:57-73: entering a method at byte offset [o]. *)
Definition enter (mi : meth) : RM unit :=
  pushAmxFrame;;;
  (if StackSizeForLocalSlots mi =? 0 then ret tt else addStack (StackSizeForLocalSlots mi)).

(* Return from the current activation with value [v]: Run returns to visitCALL
   (vm/interpreter.cpp:180-185) or to the host. *)
Definition return_to (v : Z) (r : rt) (callers : list act) : outcome :=
  match callers with
  | [] => Done v r
  | a :: rest => Next false (mkConfig r (mkAct (a_meth a) (a_pc a) v (a_alt a)) rest)
  end.

Section Step.
Variable strict : bool.
Variable fe : fenv.
Variable p : prog.
(* watchdog()->HandleInterrupt() fails in this state? *)
Variable timed_out : config -> bool.

Definition ncells : Z := Z.of_nat (length (p_code p)).

(* Jump of the reader to byte offset [o] (vm/pcode-reader.h:102-108); [next] is the cell after
   the jump instruction, whose offset the backward test compares with. *)
Definition do_jump (c : config) (check : bool) (o next : Z) : outcome :=
  let back := check && (o <? next * 4) in
  if back && timed_out c then Stop TIMEOUT (c_rt c)
  else if (o <? 0) || negb (o mod 4 =? 0) || (ncells * 4 <=? o) then Undef UBAssert
  else let a := c_cur c in
       Next back (mkConfig (c_rt c) (mkAct (a_meth a) (o / 4) (a_pri a) (a_alt a)) (c_callers c)).

(* vm/interpreter.cpp:671-682: first matching case, else the default. *)
Fixpoint find_case (code : list Z) (pos : Z) (n : nat) (v : Z) : option Z :=
  match n with
  | O => None
  | S n' => if cell_at code pos =? v then Some (cell_at code (pos + 1))
            else find_case code (pos + 2) n' v
  end.

(* One iteration of the loop in Interpreter::run (vm/interpreter.cpp:73-81). *)
Definition step (c : config) : outcome :=
  let code := p_code p in
  let a := c_cur c in
  let pc := a_pc a in
  if (pc <? 0) || (ncells <? pc) then Undef UBMem
  else if pc =? ncells then return_to 0 (c_rt c) (c_callers c)   (* !more() *)
  else
    let op := cell_at code pc in
    if (op =? OP_PROC) || (op =? OP_ENDPROC) then return_to 0 (c_rt c) (c_callers c)
    else match decode code pc with
    | None => Undef UBAssert
    | Some i =>
      let next := pc + insn_size code pc in
      if ncells <? next then Undef UBMem
      else match i with
      | RETN =>
        match popAmxFrame (c_rt c) with
        | Ok _ r => return_to (a_pri a) r (c_callers c)
        | Fail e r => Stop e r
        | UB u => Undef u
        end
      | CALL o =>
        match p_validate p o with
        | inr e => Stop e (c_rt c)
        | inl mi =>
          match enter mi (c_rt c) with
          | Ok _ r => Next false (mkConfig r (mkAct mi (o / 4 + 1) 0 0)
                                           (mkAct (a_meth a) next (a_pri a) (a_alt a) :: c_callers c))
          | Fail e r => Stop e r
          | UB u => Undef u
          end
        end
      | JUMP o => do_jump c true o next
      | JCMP cm o =>
        if eval_cmp cm (a_pri a) (a_alt a) then do_jump c true o next
        else Next false (mkConfig (c_rt c) (mkAct (a_meth a) next (a_pri a) (a_alt a)) (c_callers c))
      | SWITCH tbl =>
        let t := tbl / 4 in
        if (t <? 0) || (ncells <? t + 3) || negb (cell_at code t =? OP_CASETBL) then Undef UBMem
        else
          let n := cell_at code (t + 1) in
          if (n <? 0) || (ncells <? t + 3 + 2 * n) then Undef UBMem
          else
            let target := match find_case code (t + 3) (Z.to_nat n) (a_pri a) with
                          | Some o => o
                          | None => cell_at code (t + 2)
                          end in
            do_jump c false target next
      | _ =>
        if negb (slots_ok (a_meth a) i) then Undef UBMem else
        match exec strict fe (p_natives p) (a_meth a) i (mkIst (c_rt c) (a_pri a) (a_alt a)) with
        | Ok _ s => Next false (mkConfig (rts s) (mkAct (a_meth a) next (pri s) (alt s)) (c_callers c))
        | Fail e s => Stop e (rts s)
        | UB u => Undef u
        end
      end
    end.

(* Bounded run: [inl] final outcome, [inr] the configuration when the fuel runs out. *)
Fixpoint run (fuel : nat) (c : config) : outcome + config :=
  match fuel with
  | O => inr c
  | S f => match step c with
           | Next _ c' => run f c'
           | o => inl o
           end
  end.

End Step.

(* PluginRuntime::Invoke's entry into the engine (vm/plugin-runtime.cpp:781-790) for a method:
   push the parameters and their count, then enter. *)
Definition start (mi : meth) (o : Z) (args : list Z) (r : rt) : outcome :=
  let n := Z.of_nat (length args) in
  let sp' := wrap32 (sp r - 4 * (n + 1)) in
  match ((fix store (l : list Z) (a : Z) : RM unit :=
            match l with [] => ret tt | v :: l' => wr32 a v;;; store l' (a + 4) end)
           (n :: args) sp') (set_sp sp' r) with
  | Ok _ r1 =>
    match enter mi r1 with
    | Ok _ r2 => Next false (mkConfig r2 (mkAct mi (o / 4 + 1) 0 0) [])
    | Fail e r2 => Stop e r2
    | UB u => Undef u
    end
  | Fail e r1 => Stop e r1
  | UB u => Undef u
  end.
