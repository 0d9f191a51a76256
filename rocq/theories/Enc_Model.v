(* Model of the x64 assembler: the bytes each of its methods appends (vm/x64/assembler-x64.h, vm/assembler.h).
   A byte is a number from 0 to 255.  Registers are their codes, 0 to 15 (assembler-x64.h:86-129). *)
From Verif Require Import Base.

Notation bytes := (list Z) (only parsing).

(* ---- Writing (vm/assembler.h:103-126) ---- *)
Definition le32 (v : Z) : bytes := [v mod 256; v / 256 mod 256; v / 65536 mod 256; v / 16777216 mod 256].
Definition le64 (v : Z) : bytes := le32 v ++ le32 (v / two32).
(* int8_t(v) stored in a byte. *)
Definition byte (v : Z) : Z := v mod 256.
Definition is_i8 (v : Z) : bool := (- 128 <=? v) && (v <=? 127).       (* imm >= SCHAR_MIN && imm <= SCHAR_MAX *)

(* ---- Registers (assembler-x64.h:40-60) ---- *)
Definition rex_bit (code : Z) : Z := Z.shiftr code 3.
Definition low_bits (code : Z) : Z := Z.land code 7.
Definition rax := 0.
Definition rsp := 4.
Definition rbp := 5.
Definition r12 := 12.
Definition r13 := 13.
Definition kSIB := rsp.
Definition kNoIndex := rsp.

(* ---- Operands (assembler-x64.h:205-340) ----  NoScale, ScaleTwo, ScaleFour, ScaleEight are 0 to 3. *)
Record operand := mkOp { o_bytes : bytes; o_rex : Z }.
Definition modrm (mode rm : Z) : operand := mkOp [Z.lor (Z.shiftl mode 6) (low_bits rm)] (rex_bit rm).
Definition with_disp (o : operand) (d : bytes) : operand := mkOp (o_bytes o ++ d) (o_rex o).
Definition modrm_disp0 (rm : Z) := modrm 0 rm.
Definition modrm_disp8 (rm disp : Z) := with_disp (modrm 1 rm) [byte disp].
Definition modrm_disp32 (rm disp : Z) := with_disp (modrm 2 rm) (le32 disp).
Definition sib (mode scale index base : Z) : operand :=
  let o := modrm mode kSIB in
  mkOp (o_bytes o ++ [Z.lor (Z.lor (Z.shiftl scale 6) (Z.shiftl (low_bits index) 3)) (low_bits base)])
       (Z.lor (o_rex o) (Z.lor (Z.shiftl (rex_bit index) 1) (rex_bit base))).
Definition sib_disp0 (scale index base : Z) := sib 0 scale index base.
Definition sib_disp8 (scale index base disp : Z) := with_disp (sib 1 scale index base) [byte disp].
Definition sib_disp32 (scale index base disp : Z) := with_disp (sib 2 scale index base) (le32 disp).

Inductive addr :=
| ABase (reg disp : Z)                        (* Operand(Register, int32_t) *)
| AScale (base scale disp : Z)                (* Operand(Register, Scale, int32_t) *)
| AIndex (base index scale disp : Z)          (* Operand(Register, Register, Scale, int32_t) *)
| AAbs (value : Z).                           (* Operand(const AddressValue&) *)
Definition operand_of (a : addr) : operand :=
  match a with
  | ABase reg disp =>
    if (reg =? rsp) || (reg =? r12) then
      if disp =? 0 then sib_disp0 0 kNoIndex reg
      else if is_i8 disp then sib_disp8 0 kNoIndex reg disp
      else sib_disp32 0 kNoIndex reg disp
    else if (disp =? 0) && negb (reg =? rbp) && negb (reg =? r13) then modrm_disp0 reg
    else if is_i8 disp then modrm_disp8 reg disp
    else modrm_disp32 reg disp
  | AScale base scale disp =>
    if (disp =? 0) && negb (base =? rbp) && negb (base =? r13) then sib_disp0 scale kNoIndex base
    else if is_i8 disp then sib_disp8 scale kNoIndex base disp
    else sib_disp32 scale kNoIndex base disp
  | AIndex base index scale disp =>
    if (disp =? 0) && negb (base =? rbp) && negb (base =? r13) then sib_disp0 scale index base
    else if is_i8 disp then sib_disp8 scale index base disp
    else sib_disp32 scale index base disp
  | AAbs value => with_disp (sib 0 0 kNoIndex rbp) (le32 value)
  end.

(* The R/M of an instruction: a register (of either kind) or a memory operand. *)
Inductive rm := R (r : Z) | M (a : addr).
(* The other operand: a register, or an opcode extension. *)
Inductive opreg := OReg (r : Z) | OExt (n : Z).

(* ---- Prefixes and ModR/M (assembler-x64.h:1124-1202) ---- *)
Definition rex_bit_for_reg (o : opreg) : Z := match o with OReg r => rex_bit r | OExt _ => 0 end.
Definition rex_bits_for_rm (x : rm) : Z := match x with R r => rex_bit r | M a => o_rex (operand_of a) end.
Definition opreg_bits (o : opreg) : Z := match o with OReg r => low_bits r | OExt n => n end.
Definition emit_modrm (o : opreg) (x : rm) : bytes :=
  match x with
  | R r => [byte (Z.lor (Z.lor (Z.shiftl 3 6) (Z.shiftl (opreg_bits o) 3)) (low_bits r))]
  | M a => match o_bytes (operand_of a) with
           | b :: t => byte (Z.lor b (Z.shiftl (opreg_bits o) 3)) :: t
           | [] => []
           end
  end.
Definition emit_rex_64 (bits : Z) : bytes := [Z.lor 72 bits].
Definition maybe_emit_rex (bits : Z) : bytes := if bits =? 0 then [] else [Z.lor 64 bits].
Definition both (o : opreg) (x : rm) : Z := Z.lor (Z.shiftl (rex_bit_for_reg o) 2) (rex_bits_for_rm x).

(* ---- assembler-x64.h:1029-1122 ---- *)
Definition emit1_64 (op : Z) (o : opreg) (x : rm) : bytes := emit_rex_64 (both o x) ++ op :: emit_modrm o x.
Definition emit1_64_rex (op r : Z) : bytes := emit_rex_64 (rex_bit r) ++ [byte op].
Definition emit1_64_byte (op : Z) : bytes := [72; byte op].
Definition emit1 (op : Z) (o : opreg) (x : rm) : bytes := maybe_emit_rex (both o x) ++ op :: emit_modrm o x.
Definition emit1_maybe_rex (op r : Z) : bytes := maybe_emit_rex (rex_bit r) ++ [byte op].
Definition emit2_64 (prefix op : Z) (o : opreg) (x : rm) : bytes := emit_rex_64 (both o x) ++ prefix :: op :: emit_modrm o x.
Definition emit2 (prefix op : Z) (o : opreg) (x : rm) : bytes := maybe_emit_rex (both o x) ++ prefix :: op :: emit_modrm o x.
(* The REX bit of [o] is not written. *)
Definition emit3_sse (prefix op1 op2 : Z) (o : opreg) (x : rm) : bytes :=
  prefix :: maybe_emit_rex (rex_bits_for_rm x) ++ op1 :: op2 :: emit_modrm o x.
Definition emit4_sse (prefix op1 op2 op3 : Z) (o : opreg) (x : rm) : bytes :=
  prefix :: maybe_emit_rex (rex_bits_for_rm x) ++ op1 :: op2 :: op3 :: emit_modrm o x.

(* assembler-x64.h:957-1001; [r] the operation. *)
Definition alu_imm_64 (r imm : Z) (x : rm) : bytes :=
  if is_i8 imm then emit1_64 131 (OExt r) x ++ [byte imm]
  else match x with
       | R 0 => [byte (Z.lor 5 (Z.shiftl r 3))] ++ le32 imm
       | _ => emit1_64 129 (OExt r) x ++ le32 imm
       end.
Definition alu_imm_32 (r imm : Z) (x : rm) : bytes :=
  if is_i8 imm then emit1 131 (OExt r) x ++ [byte imm]
  else match x with
       | R 0 => [byte (Z.lor 5 (Z.shiftl r 3))] ++ le32 imm
       | _ => emit1 129 (OExt r) x ++ le32 imm
       end.
(* The version taking an Operand, when the Operand is a register (assembler-x64.h:803-805, 281-286). *)
Definition alu_imm_32_op (r imm rg : Z) : bytes :=
  if is_i8 imm then emit1 131 (OExt r) (R rg) ++ [byte imm] else emit1 129 (OExt r) (R rg) ++ le32 imm.
(* assembler-x64.h:1003-1027. *)
Definition shift_imm_64 (x : rm) (r imm : Z) : bytes :=
  if imm =? 1 then emit1_64 209 (OExt r) x else emit1_64 193 (OExt r) x ++ [Z.land imm 63].
Definition shift_imm_32 (x : rm) (r imm : Z) : bytes :=
  if imm =? 1 then emit1 209 (OExt r) x else emit1 193 (OExt r) x ++ [Z.land imm 31].

(* ---- The methods ----  [w64]: the method whose name ends in q rather than l.  Operations of add, or, and, sub, xor and cmp
   are 0, 1, 4, 5, 6, 7 (the opcode extension; the opcode of the register form is 8 times that plus 1). *)
Inductive call :=
| Mov_rr (d s : Z) | Movl_rr (d s : Z)                              (* movq(Register, Register); movl(const T&, Register) *)
| Mov_load (w64 : bool) (d : Z) (a : addr)
| Mov_store (w64 : bool) (a : addr) (s : Z)
| Movq_i (d v : Z) | Movl_i (d v : Z) | Movl_mi (a : addr) (v : Z)
| Movw (a : addr) (s : Z) | Movb (x : rm) (s : Z)
| Movsxd (d : Z) (x : rm) | Movzxb (d s : Z)
| Lea (d : Z) (a : addr)
| Alu (w64 : bool) (o : Z) (x : rm) (s : Z)                         (* addq, addl, subq, ..., cmpl *)
| Alu_i (w64 : bool) (o : Z) (x : rm) (imm : Z)
| Andl_i (d imm : Z)
| Cmp_load (w64 : bool) (l : Z) (a : addr)
| Test (w64 : bool) (x : rm) (r : Z) | Testq_i (x : rm) (imm : Z)
| Not (w64 : bool) (r : Z) | Neg (w64 : bool) (r : Z) | Idiv (w64 : bool) (r : Z)
| Shift_i (w64 : bool) (o : Z) (x : rm) (imm : Z)                   (* o: shl 4, shr 5, sar 7; imm a uint8_t *)
| Shift_cl (w64 : bool) (o r : Z)
| Imul (w64 : bool) (d s : Z) | Imull_i (d s imm : Z)
| Xchgq (d s : Z)
| Set_cc (cc : Z) (x : rm)
| Push (r : Z) | Push_i (imm : Z) | Pop (r : Z)
| Call_r (r : Z) | Jmp_rm (x : rm)
| Leave | Ret | Cld | Rep_movsb | Rep_movsd | Rep_stosd | Breakpoint
| Movd_x (d s : Z)                                                  (* movd(FloatRegister, Register) *)
| Movd_r (d s : Z)                                                  (* movd(Register, FloatRegister) *)
| Sse (o d s : Z)                                                   (* addss 0x58, mulss 0x59, subss 0x5c, divss 0x5e *)
| Xorps (d s : Z)
| Ucomiss (l : rm) (r : Z)
| Cvtsi2ss (d : Z) (x : rm) | Cvtss2si (d : Z) (a : addr) | Cvttss2si (d : Z) (x : rm)
| Roundss (d : Z) (a : addr) (mode : Z)                             (* roundss_floor 1, roundss_ceil 2 *)
| Movq_to_address (value s : Z) | Movq_from_address (d value : Z).  (* movq(AddressOperand, Register) and back *)

(* assembler-x64.h:471-520, 555-912. *)
Definition asm (c : call) : bytes :=
  match c with
  | Mov_rr d s => emit1_64 139 (OReg d) (R s)
  | Movl_rr d s => emit1 137 (OReg s) (R d)
  | Mov_load w d a => (if w then emit1_64 else emit1) 139 (OReg d) (M a)
  | Mov_store w a s => (if w then emit1_64 else emit1) 137 (OReg s) (M a)
  | Movq_i d v =>
    if (0 <=? v) && (v <=? 4294967295) then emit1_maybe_rex (184 + low_bits d) d ++ le32 v
    else if (- two31 <=? v) && (v <=? two31 - 1) then emit1_64 199 (OExt 0) (R d) ++ le32 v
    else emit1_64_rex (184 + low_bits d) d ++ le64 v
  | Movl_i d v => emit1_maybe_rex (184 + low_bits d) d ++ le32 v
  | Movl_mi a v => emit1 199 (OExt 0) (M a) ++ le32 v
  | Movw a s => emit1 137 (OReg s) (M a)
  | Movb x s => emit1 136 (OReg s) x
  | Movsxd d x => emit1_64 99 (OReg d) x
  | Movzxb d s => emit2 15 182 (OReg d) (R s)
  | Lea d a => emit1_64 141 (OReg d) (M a)
  | Alu w o x s => (if w then emit1_64 else emit1) (8 * o + 1) (OReg s) x
  | Alu_i w o x imm => (if w then alu_imm_64 else alu_imm_32) o imm x
  | Andl_i d imm => alu_imm_32_op 4 imm d
  | Cmp_load w l a => (if w then emit1_64 else emit1) 59 (OReg l) (M a)
  | Test w x r => (if w then emit1_64 else emit1) 133 (OReg r) x
  | Testq_i x imm => (match x with R 0 => emit1_64_byte 169 | _ => emit1_64 247 (OExt 0) x end) ++ le32 imm
  | Not w r => (if w then emit1_64 else emit1) 247 (OExt 2) (R r)
  | Neg w r => (if w then emit1_64 else emit1) 247 (OExt 3) (R r)
  | Idiv w r => (if w then emit1_64 else emit1) 247 (OExt 7) (R r)
  | Shift_i w o x imm => (if w then shift_imm_64 else shift_imm_32) x o imm
  | Shift_cl w o r => (if w then emit1_64 else emit1) 211 (OExt o) (R r)
  | Imul w d s => (if w then emit2_64 else emit2) 15 175 (OReg d) (R s)
  | Imull_i d s imm =>
    if is_i8 imm then emit1 107 (OReg d) (R s) ++ [byte imm] else emit1 105 (OReg d) (R s) ++ le32 imm
  | Xchgq d s =>
    if s =? rax then emit1_64_byte (144 + d) else if d =? rax then emit1_64_byte (144 + s) else emit1_64 135 (OExt s) (R d)
  | Set_cc cc x => emit2 15 (144 + cc) (OExt 0) x
  | Push r => emit1_maybe_rex (80 + low_bits r) r
  | Push_i imm => if is_i8 imm then [106; byte imm] else 104 :: le32 imm
  | Pop r => emit1_maybe_rex (88 + low_bits r) r
  | Call_r r => emit1 255 (OExt 2) (R r)
  | Jmp_rm x => emit1 255 (OExt 4) x
  | Leave => [201] | Ret => [195] | Cld => [252]
  | Rep_movsb => [243; 164] | Rep_movsd => [243; 165] | Rep_stosd => [243; 171]
  | Breakpoint => [204]
  | Movd_x d s => emit3_sse 102 15 110 (OReg d) (R s)
  | Movd_r d s => emit3_sse 102 15 126 (OReg d) (R s)
  | Sse o d s => emit3_sse 243 15 o (OReg d) (R s)
  | Xorps d s => emit2 15 87 (OReg s) (R d)
  | Ucomiss l r => emit2 15 46 (OReg r) l
  | Cvtsi2ss d x => emit3_sse 243 15 42 (OReg d) x
  | Cvtss2si d a => emit3_sse 243 15 45 (OReg d) (M a)
  | Cvttss2si d x => emit3_sse 243 15 44 (OReg d) x
  | Roundss d a mode => emit4_sse 102 15 58 10 (OReg d) (M a) ++ [mode]
  | Movq_to_address v s => if s =? rax then emit1_64_byte 163 ++ le64 v else emit1_64 137 (OReg s) (M (AAbs v))
  | Movq_from_address d v => if d =? rax then emit1_64_byte 161 ++ le64 v else emit1_64 139 (OReg d) (M (AAbs v))
  end.
Definition asm_all (l : list call) : bytes := flat_map asm l.

(* ---- The buffer (vm/assembler.h:41-147) ---- *)
Definition kMinBufferSize : Z := 4096.
Definition kMaxInstructionSize : Z := 32.
Definition kMaxBufferSize : Z := (two31 - 1) / 2.
Record buffer := mkBuf { b_cap : Z; b_pos : Z; b_oom : bool }.
Definition new_buffer : buffer := mkBuf kMinBufferSize 0 false.      (* 52-57, malloc having succeeded *)
(* ensureSpace, 112-140; [ok]: whether realloc succeeds. *)
Definition ensureSpace (ok : bool) (b : buffer) : buffer :=
  if b_pos b + kMaxInstructionSize <=? b_cap b then b
  else if b_oom b then b
  else if kMaxBufferSize <? b_cap b * 2 then mkBuf (b_cap b) 0 true
  else if ok then mkBuf (b_cap b * 2) (b_pos b) false
  else mkBuf (b_cap b) 0 true.
(* A method that writes [n] bytes: ensureSpace once, then the writes.  None: a write outside the buffer. *)
Definition append (ok : bool) (n : Z) (b : buffer) : option buffer :=
  let b := ensureSpace ok b in
  if b_pos b + n <=? b_cap b then Some (mkBuf (b_cap b) (b_pos b + n) (b_oom b)) else None.
Fixpoint append_all (l : list (bool * Z)) (b : buffer) : option buffer :=
  match l with [] => Some b | (ok, n) :: l' => match append ok n b with Some b' => append_all l' b' | None => None end end.

(* ---- Constants before the code (assembler-x64.h:919-940, 409-420, 497-506, assembler-x64.cpp:21-51) ----
   The code so far and the address table; every entry is a constant (relocated entries: see Jit_Model). *)
Record stream := mkStream { s_code : bytes; s_table : list Z }.
Definition pc (s : stream) : Z := Z.of_nat (length (s_code s)).
Definition slots (s : stream) : Z := Z.of_nat (length (s_table s)).
Definition put (c : call) (s : stream) : stream := mkStream (s_code s ++ asm c) (s_table s).
(* Operand(rip): modrm_disp0(rbp) and four bytes that are written afterwards; emitRipRelativeConstant.  None: out of memory. *)
Definition rip_constant (first : bytes) (v : Z) (s : stream) : option stream :=
  let after := pc s + Z.of_nat (length first) + 4 in
  let data_size := (slots s + 1) * 8 in
  if two31 - 1 - data_size <? after then None
  else Some (mkStream (s_code s ++ first ++ le32 (- (after + data_size))) (s_table s ++ [v])).
Definition rip_modrm (n : Z) : Z := Z.lor (Z.lor (Z.shiftl 0 6) (low_bits rbp)) (Z.shiftl n 3).
Definition call_address (v : Z) (s : stream) := rip_constant [255; rip_modrm 2] v s.   (* call(const AddressValue&) *)
Definition jmp_address (v : Z) (s : stream) := rip_constant [255; rip_modrm 4] v s.    (* jmp(const AddressValue&) *)
(* lea(dest, RipDataLabel), the entries emitted, bind(RipDataLabel): the displacement bind writes. *)
Definition data_label (orig_rip : Z) (s : stream) : Z := - (orig_rip + slots s * 8).

(* What lies in the executable memory of a linked method that starts at [a]: the table, last entry first, then the code. *)
Definition entry (a : Z) (s : stream) : Z := a + slots s * 8.
Definition word (a : Z) (s : stream) (at_ : Z) : option Z :=
  if ((at_ - a) mod 8 =? 0) && (a <=? at_) then nth_error (rev (s_table s)) (Z.to_nat ((at_ - a) / 8)) else None.

(* ---- Jumps to a bound label (assembler-x64.h:460-462, 518-526, 537-556, 908-931) ---- *)
Inductive jump := JCall | JJmp | JJmp32 | JJ (cc : Z) | JJ32 (cc : Z).
Definition long_opcode (j : jump) : bytes :=
  match j with JCall => [232] | JJmp | JJmp32 => [233] | JJ cc | JJ32 cc => [15; byte (128 + cc)] end.
Definition short_opcode (j : jump) : option Z := match j with JJmp => Some 235 | JJ cc => Some (byte (112 + cc)) | _ => None end.
Definition long_jump (j : jump) (position target : Z) : bytes :=
  long_opcode j ++ le32 (target - (position + Z.of_nat (length (long_opcode j)) + 4)).
Definition jump_to (j : jump) (position target : Z) : bytes :=
  match short_opcode j with
  | Some op => if is_i8 (target - (position + 2)) then [op; byte (target - (position + 2))] else long_jump j position target
  | None => long_jump j position target
  end.
