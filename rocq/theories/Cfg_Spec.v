(* What control flow inside a method is, independently of the verifier: the instructions of a method
   are those met by decoding it front to back, and the interpreter's decoder says where each goes. *)
From Verif Require Import Base Rt_Model Array_Model Interp_Model Cfg_Model.

(* An instruction of the instruction set occupies the cells from [pc], all inside the code. *)
Definition instr_at (code : list Z) (pc : Z) : Prop :=
  0 <= pc < Z.of_nat (length code) /\
  cell_at code pc <> OP_PROC /\ cell_at code pc <> OP_ENDPROC /\
  cell_at code pc <> 0 /\ opcode_size (cell_at code pc) <> 0 /\
  pc + insn_size code pc <= Z.of_nat (length code).

(* The cells met when decoding the method whose PROC is at cell [m] front to back. *)
Inductive swept (code : list Z) (m : Z) : Z -> Prop :=
| swept_first : swept code m (m + 1)
| swept_next q : swept code m q -> instr_at code q -> swept code m (q + insn_size code q).

(* [pc] is the first cell of an instruction of the method whose PROC is at cell [m]. *)
Definition insn_of (code : list Z) (m pc : Z) : Prop := swept code m pc /\ instr_at code pc.

(* The instruction at [pc] can fall through to the next one. *)
Definition falls_through (code : list Z) (pc : Z) : Prop :=
  match decode code pc with
  | Some RETN | Some (JUMP _) | Some (SWITCH _) | None => False
  | _ => True
  end.

(* The instruction at [pc] can jump to byte offset [o]: a jump, or a switch whose table (ncases,
   default offset, then value and offset of each case) has [o] as an offset. *)
Definition jumps_to (code : list Z) (pc o : Z) : Prop :=
  match decode code pc with
  | Some (JUMP t) | Some (JCMP _ t) => o = t
  | Some (SWITCH t) =>
      o = cell_at code (t / 4 + 2) \/
      exists k, 0 <= k < cell_at code (t / 4 + 1) /\ o = cell_at code (t / 4 + 4 + 2 * k)
  | _ => False
  end.

(* Cells execution of the method can reach. *)
Inductive reaches (code : list Z) (m : Z) : Z -> Prop :=
| reach_first : reaches code m (m + 1)
| reach_fall pc : reaches code m pc -> falls_through code pc ->
                  reaches code m (pc + insn_size code pc)
| reach_jump pc o : reaches code m pc -> jumps_to code pc o -> reaches code m (o / 4).

(* The verifier's first two passes accept the method. *)
Definition accepted (code : list Z) (m : Z) : Prop :=
  exists strict fuel x, scan_method strict fuel code m = CGood x.

(* No case table met by decoding the method front to back has a negative count. *)
Definition counts_ok (code : list Z) (m : Z) : Prop :=
  forall pc, swept code m pc -> cell_at code pc = OP_CASETBL -> 0 <= cell_at code (pc + 1).

(* Every cell is a 32-bit value and the code section is smaller than 2 GiB. *)
Definition code_ok (code : list Z) : Prop :=
  Forall is_i32 code /\ Z.of_nat (length code) * 4 < two31.

(* An activation of the interpreter is inside the method at [m]. *)
Definition inside (code : list Z) (a : act) (m : Z) : Prop :=
  0 <= m /\ accepted code m /\ reaches code m (a_pc a).

(* The engine only enters methods the verifier accepted. *)
Definition enters_accepted (p : prog) : Prop :=
  forall o mi, p_validate p o = inl mi -> 0 <= o /\ o mod 4 = 0 /\ accepted (p_code p) (o / 4).

(* Each activation of the running program is inside the method listed for it, innermost first. *)
Definition placed (p : prog) (c : config) (ms : list Z) : Prop :=
  Forall2 (inside (p_code p)) (c_cur c :: c_callers c) ms.

Inductive runs (strict : bool) (fe : fenv) (p : prog) (t : config -> bool) : config -> config -> Prop :=
| runs_refl c : runs strict fe p t c c
| runs_step c b c' c'' : step strict fe p t c = Next b c' -> runs strict fe p t c' c'' ->
                         runs strict fe p t c c''.

(* How executing the instruction at [c] may change the stack of methods. *)
Definition method_change (p : prog) (c : config) (ms ms' : list Z) : Prop :=
  match decode (p_code p) (a_pc (c_cur c)) with
  | Some (CALL o) => ms' = o / 4 :: ms
  | Some RETN => exists m, ms = m :: ms'
  | _ => ms' = ms
  end.

(* A run that never consults the watchdog, during which the activation at nesting depth [d] neither
   returns nor executes a SWITCH. *)
Definition depth (c : config) : nat := length (c_callers c).
Definition is_switch (i : option instr) : Prop := match i with Some (SWITCH _) => True | _ => False end.

Inductive unpolled (strict : bool) (fe : fenv) (p : prog) (t : config -> bool) (d : nat) : config -> config -> Prop :=
| unpolled_refl c : unpolled strict fe p t d c c
| unpolled_step c c' c'' : step strict fe p t c = Next false c' -> (d <= depth c')%nat ->
    (depth c = d -> ~ is_switch (decode (p_code p) (a_pc (c_cur c)))) ->
    unpolled strict fe p t d c' c'' -> unpolled strict fe p t d c c''.

(* [k] steps, none of which consults the watchdog. *)
Inductive silent (strict : bool) (fe : fenv) (p : prog) (t : config -> bool) : nat -> config -> config -> Prop :=
| silent_0 c : silent strict fe p t 0 c c
| silent_S k c c' c'' : step strict fe p t c = Next false c' -> silent strict fe p t k c' c'' ->
                        silent strict fe p t (S k) c c''.
