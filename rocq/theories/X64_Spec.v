(* What compiled code owes the script: it does what the interpreter does.  C46. *)
From Verif Require Import Base Rt_Model Array_Model Interp_Model Rt_Spec Mem_Spec X64_Model.

(* An address a 64-bit process can have its memory at. *)
Definition user_space (base : Z) : Prop := 0 <= base < 2 ^ 47.
(* The block does not cross a 4 GiB boundary. *)
Definition one_window (base : Z) (s : rt) : Prop := base mod two32 + mem_size s <= two32.

Definition bytes_only (m : memory) : Prop := forall a, is_byte (m a).

(* A state of a running plugin. *)
Record running (s : ist) : Prop := {
  rn_bounds : in_bounds (rts s);
  rn_frm : 0 <= frm (rts s) < mem_size (rts s);
  rn_pri : is_i32 (pri s);
  rn_alt : is_i32 (alt s);
  rn_bytes : bytes_only (mem (rts s))
}.

(* The machine holds the interpreter's state: the stack, frame and heap pointers, the memory, and those of PRI and ALT
   that [kp] and [ka] say. *)
Record holds (base : Z) (kp ka : bool) (s : ist) (x : xst) : Prop := {
  ho_pri : kp = true -> xr x RAX = u32 (pri s);
  ho_alt : ka = true -> xr x RDX = u32 (alt s);
  ho_frm : xr x RBX = base + frm (rts s);
  ho_stk : xr x R14 = base + sp (rts s);
  ho_dat : xr x R15 = base;
  ho_hp : xc x CHp = u32 (hp (rts s));
  ho_cfrm : xc x CFrm = u32 (frm (rts s));
  ho_scope : xc x CScope = u32 (hp_scope (rts s));
  ho_mem : forall a, xm x a = mem (rts s) a;
  ho_exn : exn x = None
}.

(* The float instructions of the machine compute what the interpreter's C++ computes. *)
Definition fcond (c : option comparison) (op : Z) : bool :=
  match op, c with
  | 179, Some Datatypes.Eq => true
  | 180, Some Datatypes.Eq => false | 180, _ => true
  | 181, Some Lt => true
  | 182, Some Lt | 182, Some Datatypes.Eq => true
  | 183, Some Gt => true
  | 184, Some Gt | 184, Some Datatypes.Eq => true
  | _, _ => false
  end.
Record floats_agree (fe : fenv) (fp : fpu) : Prop := {
  fa_neg : forall p, is_i32 p -> f1 fe 174 p = wrap32 (Z.lxor (u32 p) two31);
  fa_cvt : forall p, is_i32 p -> f1 fe 185 p = p_of_int fp p /\ is_i32 (p_of_int fp p);
  fa_arith : forall op o p a, In (op, o) [(175, SMul); (177, SAdd)] -> is_i32 p -> is_i32 a ->
    f2 fe op p a = p_arith fp o p a /\ is_i32 (p_arith fp o p a);
  fa_arith_alt : forall op o p a, In (op, o) [(176, SDiv); (178, SSub)] -> is_i32 p -> is_i32 a ->
    f2 fe op p a = p_arith fp o a p /\ is_i32 (p_arith fp o a p);
  fa_mod : forall p a, is_i32 p -> is_i32 a -> f2 fe 186 p a = p_fmod fp a p /\ is_i32 (p_fmod fp a p);
  fa_cmp : forall op p a, 179 <= op <= 184 -> is_i32 p -> is_i32 a -> f2 fe op p a = b2z (fcond (p_ucomi fp p a) op);
  fa_swap : forall p a, p_ucomi fp a p = option_map CompOpp (p_ucomi fp p a);
  fa_nearest : forall v, is_i32 v -> fun1 fe OP_RND_TO_NEAREST v = p_nearest fp v /\ is_i32 (p_nearest fp v);
  fa_zero : forall v, is_i32 v -> fun1 fe OP_RND_TO_ZERO v = p_trunc fp v /\ is_i32 (p_trunc fp v);
  fa_floor : forall v, is_i32 v -> fun1 fe OP_RND_TO_FLOOR v = p_trunc fp (p_floor fp v) /\ is_i32 (p_floor fp v) /\
                                   is_i32 (p_trunc fp (p_floor fp v));
  fa_ceil : forall v, is_i32 v -> fun1 fe OP_RND_TO_CEIL v = p_trunc fp (p_ceil fp v) /\ is_i32 (p_ceil fp v) /\
                                  is_i32 (p_trunc fp (p_ceil fp v))
}.

(* Host functions keep to the plugin's memory, leave its frame alone, return cells, and do the same for the same bytes. *)
Definition same_rt (s s' : rt) : Prop :=
  same_plugin s s' /\ regs_eq s s' /\ forall a, mem s' a = mem s a.
Definition same_res {A} (r r' : res rt A) : Prop :=
  match r, r' with
  | Ok a s, Ok b s' => a = b /\ same_rt s s'
  | Fail e s, Fail e' s' => e = e' /\ same_rt s s'
  | UB u, UB u' => u = u'
  | _, _ => False
  end.
Record native_ok (f : RM Z) : Prop := {
  na_good : good_native f;
  na_same : forall s s', same_rt s s' -> same_res (f s) (f s');
  na_result : forall s v s', f s = Ok v s' -> is_i32 v /\ frm s' = frm s /\ (bytes_only (mem s) -> bytes_only (mem s'))
}.
Definition natives_ok (nat_ : Z -> option native) : Prop :=
  forall n nt f, nat_ n = Some nt -> n_fn nt = Some f -> native_ok f.

(* Operands are 32-bit, and the reader never passes negative sizes (checked by the verifier). *)
Definition operands (i : instr) : list Z :=
  match i with
  | LOAD _ a | LOAD_S _ a | LREF_S _ a | LODB_I a | CONST _ a | ADDR _ a | STOR a _ | STOR_S a _ | SREF_S a _ | STRB_I a
  | STACK a | HEAP a | CVT_I64 a | UN64 _ a | BIN64 _ a | STOR_S_PRI_I64 a | ZERO_S_I64 a | SHL_C _ a | ADD_C a | SMUL_C a
  | ZERO_S a | EQ_C _ a | MOVS a | FILL a | BOUNDS a | GENARRAY a _ => [a]
  | STOR_S_C a b | SYSREQ_N a b => [a; b]
  | STOR_S_C_I64 a b c => [a; b; c]
  | PUSH_C l | PUSH_S l | PUSH_ADR l => l
  | INITARRAY _ a b c d e => [a; b; c; d; e]
  | _ => []
  end.
Definition slot_table_ok (mi : meth) : Prop := Forall is_i32 (local_offsets mi).

(* Which registers an instruction needs, and which hold the interpreter's value afterwards. *)
Definition uses (i : instr) : bool * bool :=
  let one r := match r with Pri => (true, false) | Alt => (false, true) end in
  match i with
  | LOAD_I | LODB_I _ | NOT | NEG | INVERT | ADD_C _ | SMUL_C _ | BOUNDS _ | STRADJUST_PRI | PUSH_I_I64 | CVT_I64 _ | TRUNCATE_I64
  | TEST_I64 | UN64 _ _ | STOR_S_PRI_I64 _ | F32_1 _ => (true, false)
  | STOR _ r | STOR_S _ r | SREF_S _ r | PUSHR r | SHL_C r _ | EQ_C r _ | INCR r | DECR r | SWAP r | INITARRAY r _ _ _ _ _ => one r
  | STOR_I | STRB_I _ | IDXADDR | SHL | SHR | SSHR | SMUL | SDIV _ | SDIV_ALT_I32 | SMOD_ALT_I32 | ADD | SUB_ALT | AND | OR | XOR
  | CMP _ | MOVS _ | FILL _ | MOVE_I64 | BIN64 _ _ | CMP64 _ | F32_2 _ => (true, true)
  | _ => (false, false)
  end.
Definition leaves (i : instr) (kp ka : bool) : bool * bool :=
  let set r := match r with Pri => (true, ka) | Alt => (kp, true) end in
  match i with
  | LOAD r _ | LOAD_S r _ | LREF_S r _ | CONST r _ | ADDR r _ | ZEROR r | POP r => set r
  | MOVE Pri => (ka, ka) | MOVE Alt => (kp, kp) | XCHG => (ka, kp)
  | HEAP _ => (kp, true)
  | EQ_C _ _ | SYSREQ_N _ _ => (true, ka)
  | SDIV_ALT_I32 | SMOD_ALT_I32 | BIN64 DivAlt64 _ | BIN64 ModAlt64 _ | F32_2 186 => (true, false)
  | GENARRAY _ _ => (kp, false)
  | INITARRAY _ _ iv _ fl _ => ((iv =? 0) && (fl =? 0) && kp, ka)
  | HEAP_SAVE => (false, false)
  | HEAP_RESTORE => (kp, false)
  | _ => (kp, ka)
  end.
Definition flow (i : instr) (k : bool * bool) : option (bool * bool) :=
  let (up, ua) := uses i in
  if implb up (fst k) && implb ua (snd k) then Some (leaves i (fst k) (snd k)) else None.

(* Where the emitted code agrees with the interpreter only under a condition. *)
Definition agrees (base : Z) (s : ist) (i : instr) : Prop :=
  let size := mem_size (rts s) in
  let clear d a n := d <= a \/ a + n <= d in          (* a copy upwards, cell by cell, is a copy *)
  match i with
  | IDXADDR => 0 <= u32 (alt s) + 4 * pri s < two32
  | STRB_I w => w <> 2
  | STACK n => n + size < two31
  | HEAP n => one_window base (rts s) /\ n + size + 64 < two31
  | HEAP_SAVE => one_window base (rts s)
  | CMP c | CMP64 c => c <> Zero /\ c <> NotZero       (* never decoded *)
  | MOVS n => clear (alt s) (pri s) (u32 n)
  | GENARRAY _ _ => heap_scopes (rts s) = true
  | INITARRAY r a iv cp fl _ =>
      0 <= iv /\ 0 <= cp /\ 0 <= fl /\
      (iv = 0 -> clear (regv s r) a (4 * cp))
  | F32_1 op => op <> 173
  | _ => True
  end.

(* Straight-line code: one instruction after another, in the interpreter and compiled. *)
Fixpoint exec_all (strict : bool) (fe : fenv) (nat_ : Z -> option native) (mi : meth) (l : list instr) : IM unit :=
  match l with [] => ret tt | i :: l' => exec strict fe nat_ mi i;;; exec_all strict fe nat_ mi l' end.
Fixpoint emit_all (env : rt) (nat_ : Z -> option native) (mi : meth) (l : list instr) : option (list xi) :=
  match l with
  | [] => Some []
  | i :: l' => match emit env nat_ mi i, emit_all env nat_ mi l' with Some c, Some c' => Some (c ++ c') | _, _ => None end
  end.
Fixpoint flow_all (l : list instr) (k : bool * bool) : option (bool * bool) :=
  match l with [] => Some k | i :: l' => match flow i k with Some k' => flow_all l' k' | None => None end end.

(* The sequence keeps to instructions and states on which the compiled code and the interpreter agree. *)
Fixpoint all_agree (base : Z) (fe : fenv) (nat_ : Z -> option native) (mi : meth) (l : list instr) (s : ist) : Prop :=
  match l with
  | [] => True
  | i :: l' => Forall is_i32 (operands i) /\ agrees base s i /\ operand_ok nat_ mi s i /\
      forall s', exec false fe nat_ mi i s = Ok tt s' -> all_agree base fe nat_ mi l' s'
  end.
(* Floats are cells. *)
Definition float_cells (fe : fenv) : Prop :=
  (forall n a, is_i32 a -> is_i32 (f1 fe n a)) /\ (forall n a b, is_i32 a -> is_i32 b -> is_i32 (f2 fe n a b)) /\
  (forall a, is_i32 a -> is_i32 (fcvt fe a)) /\ (forall n a b, is_i32 a -> is_i32 b -> is_i32 (fbin fe n a b)) /\
  (forall n a, is_i32 a -> is_i32 (fun1 fe n a)).

(* ---- Stopping with an error ---- *)
(* The address an instruction accesses through a register. *)
Definition accesses (i : instr) (s : ist) : option Z :=
  match i with LOAD_I | LODB_I _ => Some (pri s) | STOR_I | STRB_I _ => Some (alt s) | _ => None end.
(* A cell compiled code may access: inside the plugin's memory and not between its heap and its stack. *)
Definition open_cell (s : rt) (a : Z) : Prop := 0 <= a /\ a + 4 <= mem_size s /\ ~ in_gap s a.
(* Nothing but the cell at [a] differs. *)
Definition only_cell (a : Z) (m m' : memory) : Prop := forall b, b < a \/ a + 4 <= b -> m' b = m b.

(* Where compiled code makes the checks the interpreter makes. *)
Definition checks (base : Z) (nat_ : Z -> option native) (s : ist) (i : instr) : Prop :=
  let r := rts s in
  match i with
  | LOAD_I | LODB_I _ => pri s <> stp r
  | STOR_I | STRB_I _ => alt s <> stp r
  | BOUNDS n => 0 <= n
  | SDIV _ | SDIV_ALT_I32 | SMOD_ALT_I32 => True
  | HEAP n => n + mem_size r + 64 < two31 /\
              if n <? 0 then 0 <= hp r + n else base mod two32 + hp r + n + 64 < two32
  | SYSREQ_N n k => hp r + 4 < sp r /\ exists nt, nat_ n = Some nt /\
      match n_fn nt with
      | None => True
      | Some f => n_repl nt = None /\ forall v r', pushStack k r = Ok tt r' -> forall r2, f r' <> Ok v r2
      end
  | _ => False
  end.
(* The error reported: accesses through a register report MEMACCESS where the interpreter reports INVALID_ADDRESS. *)
Definition stop_code (i : instr) (s : ist) (e : err) : Z :=
  match accesses i s with Some _ => SP_ERROR_MEMACCESS | None => err_code e end.
