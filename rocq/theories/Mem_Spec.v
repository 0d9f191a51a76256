(* What a script relies on about its memory-access instructions: C01. *)
From Verif Require Import Base Rt_Model Interp_Model Rt_Spec.

(* The access an instruction asks for. *)
Inductive access :=
| Read (r : reg) (a : Z)          (* one cell into a register *)
| ReadBoth (a b : Z)              (* PRI := [a], ALT := [b] *)
| ReadLow (w a : Z)               (* PRI := the low w bytes at a, zero-extended *)
| Write (w a v : Z)               (* the low w bytes of v *)
| Modify (a d : Z)                (* [a] := [a] + d *)
| Copy (dst src n : Z)            (* n bytes *)
| Copy64 (dst src : Z)
| Fill (dst n v : Z).             (* n/4 cells *)

(* The addresses of a frame slot and of an array element. *)
Definition slot (mi : meth) (st : ist) (o : Z) : Z := wrap32 (frm (rts st) + StackOffset mi o).
Definition elem (base i : Z) : Z := wrap32 (base + i * 4).
Definition regv (st : ist) (r : reg) : Z := match r with Pri => pri st | Alt => alt st end.

(* Which access each instruction makes, with the addresses it must dereference first. *)
Definition access_of (mi : meth) (st : ist) (i : instr) : option (list Z * access) :=
  let cell a := load32 (mem (rts st)) a in
  let sl := slot mi st in
  match i with
  | LOAD r a => Some ([], Read r a)
  | LOAD_S r o => Some ([], Read r (sl o))
  | LREF_S r o => Some ([sl o], Read r (cell (sl o)))
  | LOAD_I => Some ([], Read Pri (pri st))
  | LIDX => Some ([], Read Pri (elem (alt st) (pri st)))
  | LOAD_BOTH a b => Some ([], ReadBoth a b)
  | LOAD_S_BOTH a b => Some ([], ReadBoth (sl a) (sl b))
  | LODB_I w => if (w =? 1) || (w =? 2) || (w =? 4) then Some ([], ReadLow w (pri st)) else None
  | STOR a r => Some ([], Write 4 a (regv st r))
  | STOR_S o r => Some ([], Write 4 (sl o) (regv st r))
  | STOR_S_C o v | CONST_S o v => Some ([], Write 4 (sl o) v)
  | SREF_S o r => Some ([sl o], Write 4 (cell (sl o)) (regv st r))
  | STOR_I => Some ([], Write 4 (alt st) (pri st))
  | STRB_I w => if (w =? 1) || (w =? 2) || (w =? 4) then Some ([], Write w (alt st) (pri st)) else None
  | ZERO a => Some ([], Write 4 a 0)
  | ZERO_S o => Some ([], Write 4 (sl o) 0)
  | CONSTM a v => Some ([], Write 4 a v)
  | INC a => Some ([], Modify a 1)
  | DEC a => Some ([], Modify a (-1))
  | INC_S o => Some ([], Modify (sl o) 1)
  | DEC_S o => Some ([], Modify (sl o) (-1))
  | INC_I => Some ([], Modify (pri st) 1)
  | DEC_I => Some ([], Modify (pri st) (-1))
  | MOVS n => Some ([], Copy (alt st) (pri st) n)
  | MOVE_I64 => Some ([], Copy64 (alt st) (pri st))
  | FILL n => Some ([], Fill (alt st) n (pri st))
  | _ => None
  end.

(* A block access checks its first and last byte. *)
Definition block (a n : Z) : list Z := if n =? 0 then [a] else [a; a + n - 1].
Definition checked (acc : access) : list Z :=
  match acc with
  | Read _ a | ReadLow _ a | Write _ a _ | Modify a _ => [a]
  | ReadBoth a b => [a; b]
  | Copy d a n => block a n ++ block d n
  | Copy64 d a => block a 8 ++ block d 8
  | Fill d n _ => block d n
  end.
Definition legal (s : rt) (acc : list Z * access) : Prop :=
  Forall (script_address s) (fst acc ++ checked (snd acc)).

(* The bytes an access touches. *)
Definition touched (acc : access) : list (Z * Z) :=
  match acc with
  | Read _ a | ReadLow _ a | Modify a _ => [(a, 4)]
  | Write w a _ => [(a, w)]
  | ReadBoth a b => [(a, 4); (b, 4)]
  | Copy d a n => [(d, n); (a, n)]
  | Copy64 d a => [(d, 8); (a, 8)]
  | Fill d n _ => [(d, n)]
  end.

(* Memory and registers afterwards. *)
Definition low (w v : Z) : Z := v mod 2 ^ (8 * w).
Definition mem_after (acc : access) (m : memory) (x : Z) : Z :=
  match acc with
  | Read _ _ | ReadBoth _ _ | ReadLow _ _ => m x
  | Write w a v => if (a <=? x) && (x <? a + w) then byte_of (x - a) v else m x
  | Modify a d => if (a <=? x) && (x <? a + 4) then byte_of (x - a) (load32 m a + d) else m x
  | Copy d a n => if (d <=? x) && (x <? d + n) then m (a + (x - d)) else m x
  | Copy64 d a => if (d <=? x) && (x <? d + 8) then byte_of (x - d) (load64 m a) else m x
  | Fill d n v => if (d <=? x) && (x <? d + n / 4 * 4) then byte_of ((x - d) mod 4) v else m x
  end.
Definition pri_after (acc : access) (st : ist) : Z :=
  let m := mem (rts st) in
  match acc with
  | Read Pri a | ReadBoth a _ => load32 m a
  | ReadLow 4 a => load32 m a
  | ReadLow w a => low w (load32 m a)
  | _ => pri st
  end.
Definition alt_after (acc : access) (st : ist) : Z :=
  let m := mem (rts st) in
  match acc with
  | Read Alt b | ReadBoth _ b => load32 m b
  | _ => alt st
  end.

(* Operand ranges: 32-bit registers; the verifier bounds the block amounts by the memory size. *)
Definition operands_in_range (st : ist) (acc : access) : Prop :=
  is_i32 (pri st) /\ is_i32 (alt st) /\
  match acc with Copy _ _ n | Fill _ n _ => 0 <= n <= mem_size (rts st) | _ => True end.

(* ---- Whole instructions ---- *)

(* Nothing outside the plugin's block is written, and its limits do not move. *)
Definition confined (s s' : rt) : Prop :=
  same_plugin s s' /\ forall x, x < 0 \/ mem_size s <= x -> mem s' x = mem s x.
Definition in_bounds (s : rt) : Prop := layout s /\ pointers_inside s.

(* Well-behaved host functions: they keep to the plugin's memory and leave its pointers inside. *)
Definition good_native (f : RM Z) : Prop :=
  forall s, in_bounds s ->
    match f s with Ok _ s' | Fail _ s' => confined s s' /\ in_bounds s' | UB u => u <> UBMem end.
Definition good_natives (nat_ : Z -> option native) : Prop :=
  forall n nt f, nat_ n = Some nt -> n_fn nt = Some f -> good_native f.

(* What the code relies on beyond its own run-time checks. *)
Definition slot64_ok (s : rt) (a : Z) : Prop := script_address s a /\ a + 8 <= mem_size s.
Definition operand_ok (nat_ : Z -> option native) (mi : meth) (st : ist) (i : instr) : Prop :=
  let s := rts st in
  match i with
  | STACK n | HEAP n => amount_ok s n
  | MOVS n | FILL n => 0 <= n <= mem_size s
  | CVT_I64 o | UN64 _ o | BIN64 _ o | STOR_S_C_I64 o _ _ | STOR_S_PRI_I64 o => slot64_ok s (slot mi st o)
  | GENARRAY n _ => 1 <= n /\ 4 * n < two31 /\ data_size s <= hp s /\ hp s <= sp s /\ 64 <= sp s
  | INITARRAY r dat iv copy fill v =>
      0 <= iv /\ 0 <= copy /\ 0 <= fill /\ regv st r mod 4 = 0 /\ dat mod 4 = 0 /\ is_i32 dat /\
      mem_size s mod 4 = 0 /\ data_size s mod 4 = 0
  | SYSREQ_C n | SYSREQ_N n _ => nat_ n <> None
  | _ => True
  end.
