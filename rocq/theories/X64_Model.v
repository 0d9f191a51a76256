(* Model of the 64-bit just-in-time compiler: vm/x64/jit_x64.cpp emits, for each bytecode instruction, a few machine
   instructions.  First the machine instructions it uses, with their effect on a machine whose memory is the plugin's block
   (AMD64 Architecture Programmer's Manual, volumes 3 and 4, for the forms vm/x64/assembler-x64.h encodes); then, function
   by function, what is emitted.

   Registers and addresses are unsigned 64-bit.  A memory operand is resolved to a host address; touching a byte outside
   the plugin's block [base, base + size) is [XUB UBMem].  The runtime's own fields sp_, hp_, frm_ and hp_scope_, which the
   code addresses through context_reg (jit_x64.h:181-184), and the machine stack (push and pop) are separate from it.
   Floating-point results are fields of [fpu].  Not modelled: the frames pushed around host calls
   (macro-assembler-x64.h:40-95) and the debugger's break call (BREAK with the debugger disabled emits nothing). *)
From Verif Require Import Base Rt_Model Array_Model Interp_Model.

(* vm/x64/constants-x64.h:27-34: pri = rax, alt = rdx, frm = rbx, stk = r14, dat = r15, tmp = rcx. *)
Inductive gpr := RAX | RCX | RDX | RBX | RSI | RDI | R8 | R14 | R15.
Definition gpr_eqb (a b : gpr) : bool :=
  match a, b with
  | RAX, RAX | RCX, RCX | RDX, RDX | RBX, RBX | RSI, RSI | RDI, RDI | R8, R8 | R14, R14 | R15, R15 => true
  | _, _ => false
  end.

Inductive cfield := CHp | CFrm | CSp | CScope.
Definition cfield_eqb (a b : cfield) : bool :=
  match a, b with CHp, CHp | CFrm, CFrm | CSp, CSp | CScope, CScope => true | _, _ => false end.

(* vm/x64/assembler-x64.h:149-175. *)
Inductive ccode := below | not_below | equal | not_equal | not_above | above | less | not_less | not_greater | greater | parity.

(* Operand(base, disp), Operand(base, index, scale, disp), and the fields of the runtime. *)
Inductive mref :=
| At (b : gpr) (d : Z)
| Idx (b i : gpr) (scale d : Z)
| Ctx (f : cfield).

Inductive wide := L | Q.                                  (* the l and q forms *)
Inductive alu := AAdd | ASub | AAnd | AOr | AXor.
Inductive shift := SShl | SShr | SSar.
Inductive ssearith := SAdd | SSub | SMul | SDiv.
Inductive xmm := X0 | X1.

Inductive xi :=
| MovRR (w : wide) (d s : gpr)
| MovRI (w : wide) (d : gpr) (v : Z)
| Load (w : wide) (d : gpr) (m : mref)
| Store (w : wide) (m : mref) (s : gpr)
| StoreI (m : mref) (v : Z)
| StoreB (m : mref) (s : gpr)
| Movsxd (d s : gpr)
| Movzxb (d s : gpr)
| Lea (d : gpr) (m : mref)
| Alu (w : wide) (o : alu) (d s : gpr)
| AluI (w : wide) (o : alu) (d : gpr) (v : Z)
| AddMI (f : cfield) (v : Z)
| Cmp (w : wide) (a b : gpr)
| CmpI (w : wide) (a : gpr) (v : Z)
| CmpM (a : gpr) (m : mref)
| CmpMI (m : mref) (v : Z)
| Test (w : wide) (a b : gpr)
| Not (w : wide) (r : gpr)
| Neg (w : wide) (r : gpr)
| ShiftI (w : wide) (k : shift) (r : gpr) (n : Z)
| ShiftCl (w : wide) (k : shift) (r : gpr)
| Imul (w : wide) (d s : gpr)
| ImulI (d s : gpr) (v : Z)
| Idiv (w : wide) (r : gpr)
| Xchg (a b : gpr)
| SetAl (c : ccode)
| PushR (r : gpr)
| PopR (r : gpr)
| RepMovsd | RepMovsb | RepStosd
| JFwd (c : ccode) (n : nat)          (* a local label bound [n] instructions further on *)
| JErr (c : ccode) (e : Z)            (* jumpOnError(cc, err): out of line, the error number e *)
| JErrAx (c : ccode)                  (* jumpOnError(cc): the error number is in eax *)
| JExn                                (* leave if an exception is pending: cmpl(exception code, 0), j(not_zero, return_reported_error) *)
| JRep (c : ccode)                    (* j(cc, return_reported_error): the exception has been reported *)
| MovdX (x : xmm) (s : gpr)
| MovdR (d : gpr) (x : xmm)
| XorpsSelf (x : xmm)
| Sse (o : ssearith)                  (* xmm0 := xmm0 o xmm1 *)
| Ucomi (a b : xmm)                   (* compare a with b *)
| Cvtsi2ss (s : gpr)                  (* xmm0 := float of the signed 32-bit register *)
| Cvtss2si (m : mref)                 (* eax := rounded to nearest *)
| Cvttss2si (m : mref)                (* eax := truncated *)
| RoundFloor (m : mref) | RoundCeil (m : mref)  (* xmm0 := *)
| Cvttss2siX                          (* eax := truncated xmm0 *)
| CallFmod                            (* fmodf(xmm0, xmm1) *)
| CallNative (n : Z)
| CallGen (n : Z) (z : bool)          (* InvokeGenerateFullArray, jit_x64.cpp:878-881 *)
| CallInit (r : gpr) (a iv cp fl v : Z).   (* InvokeInitArray, jit_x64.cpp:1116-1119 *)

Record flags := mkFlags { zf : bool; cf : bool; sf : bool; ofl : bool; pf : bool }.

Record fpu := mkFpu {
  p_arith : ssearith -> Z -> Z -> Z;
  p_ucomi : Z -> Z -> option comparison;       (* None: unordered *)
  p_of_int : Z -> Z;
  p_nearest : Z -> Z; p_trunc : Z -> Z; p_floor : Z -> Z; p_ceil : Z -> Z;
  p_fmod : Z -> Z -> Z
}.

(* [xf] is None after an instruction whose flags the emitted code must not look at. *)
Record xst := mkX {
  xr : gpr -> Z; xf : option flags; x0 : Z; x1 : Z; xc : cfield -> Z; xm : memory; xpush : list Z; exn : option Z }.

Inductive xres := XOk (x : xst) | XErr (e : Z) (x : xst) | XUB (u : ub).

Definition setr (r : gpr) (v : Z) (x : xst) : xst :=
  mkX (fun q => if gpr_eqb q r then v else xr x q) (xf x) (x0 x) (x1 x) (xc x) (xm x) (xpush x) (exn x).
Definition setf (f : option flags) (x : xst) : xst := mkX (xr x) f (x0 x) (x1 x) (xc x) (xm x) (xpush x) (exn x).
Definition setx (k : xmm) (v : Z) (x : xst) : xst :=
  match k with
  | X0 => mkX (xr x) (xf x) v (x1 x) (xc x) (xm x) (xpush x) (exn x)
  | X1 => mkX (xr x) (xf x) (x0 x) v (xc x) (xm x) (xpush x) (exn x)
  end.
Definition getx (k : xmm) (x : xst) : Z := match k with X0 => x0 x | X1 => x1 x end.
Definition setc (f : cfield) (v : Z) (x : xst) : xst :=
  mkX (xr x) (xf x) (x0 x) (x1 x) (fun q => if cfield_eqb q f then v else xc x q) (xm x) (xpush x) (exn x).
Definition setm (m : memory) (x : xst) : xst := mkX (xr x) (xf x) (x0 x) (x1 x) (xc x) m (xpush x) (exn x).
Definition setp (l : list Z) (x : xst) : xst := mkX (xr x) (xf x) (x0 x) (x1 x) (xc x) (xm x) l (exn x).
Definition sete (e : option Z) (x : xst) : xst := mkX (xr x) (xf x) (x0 x) (x1 x) (xc x) (xm x) (xpush x) e.

(* A value of the operand's width, unsigned; as a signed number. *)
Definition mask (w : wide) (v : Z) : Z := match w with L => u32 v | Q => u64 v end.
Definition signed (w : wide) (v : Z) : Z := match w with L => wrap32 v | Q => wrap64 v end.

(* Flags of a comparison (cmp), of and (test), of ucomiss. *)
Definition cmp_flags (w : wide) (a b : Z) : flags :=
  let r := mask w (a - b) in
  mkFlags (r =? 0) (mask w a <? mask w b) (signed w r <? 0)
          (negb (signed w r =? signed w a - signed w b)) false.
Definition test_flags (w : wide) (a b : Z) : flags :=
  let r := mask w (Z.land a b) in mkFlags (r =? 0) false (signed w r <? 0) false false.
Definition ucomi_flags (c : option comparison) : flags :=
  match c with
  | None => mkFlags true true false false true
  | Some Gt => mkFlags false false false false false
  | Some Lt => mkFlags false true false false false
  | Some Datatypes.Eq => mkFlags true false false false false
  end.
Definition cond (c : ccode) (f : flags) : bool :=
  match c with
  | below => cf f | not_below => negb (cf f)
  | equal => zf f | not_equal => negb (zf f)
  | not_above => cf f || zf f | above => negb (cf f || zf f)
  | less => xorb (sf f) (ofl f) | not_less => negb (xorb (sf f) (ofl f))
  | not_greater => zf f || xorb (sf f) (ofl f) | greater => negb (zf f || xorb (sf f) (ofl f))
  | parity => pf f
  end.

Definition eval_alu (o : alu) (a b : Z) : Z :=
  match o with AAdd => a + b | ASub => a - b | AAnd => Z.land a b | AOr => Z.lor a b | AXor => Z.lxor a b end.
Definition width (w : wide) : Z := match w with L => 32 | Q => 64 end.
Definition eval_shift (w : wide) (k : shift) (v n : Z) : Z :=
  let n := n mod width w in
  match k with
  | SShl => Z.shiftl (mask w v) n
  | SShr => Z.shiftr (mask w v) n
  | SSar => Z.shiftr (signed w v) n
  end.

(* The numbers of the errors: include/sp_vm_types.h:71-104. *)
Definition SP_ERROR_MEMACCESS : Z := 11.
Definition err_code (e : err) : Z :=
  match e with
  | FILE_FORMAT => 1 | HEAPLOW => 3 | PARAM => 4 | INVALID_ADDRESS => 5 | NOT_FOUND => 6 | STACKLOW => 8
  | INVALID_INSTRUCTION => 10 | STACKMIN => 12 | HEAPMIN => 13 | DIVIDE_BY_ZERO => 14 | ARRAY_BOUNDS => 15
  | INSTRUCTION_PARAM => 16 | ARRAY_TOO_BIG => 19 | TRACKER_BOUNDS => 20 | INVALID_NATIVE => 21 | PARAMS_MAX => 22
  | NATIVE_ERR => 23 | NOT_RUNNABLE => 24 | INTEGER_OVERFLOW => 29 | TIMEOUT => 30 | INVALID_ARRAY_SIZE => 33
  end.

Section Machine.
Variable base : Z.                    (* memory_, the host address of the plugin's block *)
Variable env : rt.                    (* the plugin: its sizes and code features; other fields are not used *)
Variable fp : fpu.
Variable natives : Z -> option native.
Variable junk : gpr -> Z.             (* what host functions leave in the registers they may change *)

Definition ea (m : mref) (x : xst) : Z :=
  match m with
  | At b d => u64 (xr x b + d)
  | Idx b i s d => u64 (xr x b + xr x i * s + d)
  | Ctx _ => 0
  end.
Definition ok_at (a n : Z) : bool := (base <=? a) && (a + n <=? base + mem_size env).

(* A read or write of a memory operand. *)
Definition load (w : wide) (m : mref) (x : xst) : option Z :=
  match m with
  | Ctx f => Some (mask L (xc x f))
  | _ =>
    let a := ea m x in
    match w with
    | L => if ok_at a 4 then Some (u32 (load32 (xm x) (a - base))) else None
    | Q => if ok_at a 8 then Some (u64 (load64 (xm x) (a - base))) else None
    end
  end.
Definition store (w : wide) (m : mref) (v : Z) (x : xst) : option xst :=
  match m with
  | Ctx f => Some (setc f (mask L v) x)
  | _ =>
    let a := ea m x in
    match w with
    | L => if ok_at a 4 then Some (setm (store32 (xm x) (a - base) (wrap32 v)) x) else None
    | Q => if ok_at a 8 then Some (setm (store64 (xm x) (a - base) (wrap64 v)) x) else None
    end
  end.

(* rep movsd, rep movsb, rep stosd with the direction flag clear: cell by cell upwards. *)
Fixpoint copy_cells (k : nat) (s d : Z) (m : memory) : option memory :=
  match k with
  | O => Some m
  | S k' => if ok_at s 4 && ok_at d 4
            then copy_cells k' (s + 4) (d + 4) (store32 m (d - base) (load32 m (s - base))) else None
  end.
Fixpoint copy_bytes (k : nat) (s d : Z) (m : memory) : option memory :=
  match k with
  | O => Some m
  | S k' => if ok_at s 1 && ok_at d 1
            then copy_bytes k' (s + 1) (d + 1) (fill_bytes m (d - base) 1 (m (s - base))) else None
  end.
Fixpoint store_cells (k : nat) (d v : Z) (m : memory) : option memory :=
  match k with
  | O => Some m
  | S k' => if ok_at d 4 then store_cells k' (d + 4) v (store32 m (d - base) (wrap32 v)) else None
  end.

(* The plugin state a host function sees: the fields of the runtime and its memory. *)
Definition seen (x : xst) : rt :=
  mkRt (xm x) (mem_size env) (data_size env) (wrap32 (xc x CHp)) (wrap32 (xc x CSp)) (stp env) (wrap32 (xc x CFrm))
       (wrap32 (xc x CScope)) (heap_scopes env) (direct_arrays env).
(* Its effect: fields and memory are as it leaves them, the registers a host function may change hold anything
   (System V and Windows calling conventions: rbx, r12-r15, rsp and rbp are kept). *)
Definition after_call (r : rt) (rax : Z) (x : xst) : xst :=
  mkX (fun q => match q with RBX | R14 | R15 => xr x q | RAX => rax | _ => junk q end) None (junk RSI) (junk RDI)
      (fun f => match f with CHp => u32 (hp r) | CFrm => u32 (frm r) | CSp => u32 (sp r) | CScope => u32 (hp_scope r) end)
      (mem r) (xpush x) (exn x).

Definition need (o : option xst) : xres := match o with Some x => XOk x | None => XUB UBMem end.
Definition flagless (x : xst) : xres := XOk (setf None x).

Definition xexec (i : xi) (x : xst) : xres :=
  match i with
  | MovRR w d s => XOk (setr d (mask w (xr x s)) x)
  | MovRI w d v => XOk (setr d (mask w v) x)
  | Load w d m => match load w m x with Some v => XOk (setr d v x) | None => XUB UBMem end
  | Store w m s => need (store w m (xr x s) x)
  | StoreI m v => need (store L m v x)
  | StoreB m s =>
      let a := ea m x in
      if ok_at a 1 then XOk (setm (fill_bytes (xm x) (a - base) 1 (xr x s mod 256)) x) else XUB UBMem
  | Movsxd d s => XOk (setr d (u64 (wrap32 (xr x s))) x)
  | Movzxb d s => XOk (setr d (xr x s mod 256) x)
  | Lea d m => XOk (setr d (ea m x) x)
  | Alu w o d s => flagless (setr d (mask w (eval_alu o (xr x d) (xr x s))) x)
  | AluI w o d v => flagless (setr d (mask w (eval_alu o (xr x d) v)) x)
  | AddMI f v => flagless (setc f (u32 (xc x f + v)) x)
  | Cmp w a b => XOk (setf (Some (cmp_flags w (xr x a) (xr x b))) x)
  | CmpI w a v => XOk (setf (Some (cmp_flags w (xr x a) v)) x)
  | CmpM a m => match load L m x with Some v => XOk (setf (Some (cmp_flags L (xr x a) v)) x) | None => XUB UBMem end
  | CmpMI m v => match load L m x with Some b => XOk (setf (Some (cmp_flags L b v)) x) | None => XUB UBMem end
  | Test w a b => XOk (setf (Some (test_flags w (xr x a) (xr x b))) x)
  | Not w r => XOk (setr r (mask w (Z.lnot (xr x r))) x)
  | Neg w r => flagless (setr r (mask w (- xr x r)) x)
  | ShiftI w k r n => flagless (setr r (mask w (eval_shift w k (xr x r) n)) x)
  | ShiftCl w k r => flagless (setr r (mask w (eval_shift w k (xr x r) (xr x RCX mod 256))) x)
  | Imul w d s => flagless (setr d (mask w (xr x d * xr x s)) x)
  | ImulI d s v => flagless (setr d (u32 (xr x s * v)) x)
  | Idiv w r =>
      let d := match w with
               | L => wrap64 (u32 (xr x RDX) * two32 + u32 (xr x RAX))
               | Q => signed Q (xr x RDX) * two64 + xr x RAX
               end in
      let v := signed w (xr x r) in
      if (v =? 0) || negb (signed w (Z.quot d v) =? Z.quot d v) then XUB UBArith       (* #DE *)
      else flagless (setr RDX (mask w (Z.rem d v)) (setr RAX (mask w (Z.quot d v)) x))
  | Xchg a b => XOk (setr b (xr x a) (setr a (xr x b) x))
  | SetAl c =>
      match xf x with
      | None => XUB UBArith
      | Some f => XOk (setr RAX (xr x RAX - xr x RAX mod 256 + b2z (cond c f)) x)
      end
  | PushR r => XOk (setp (xr x r :: xpush x) x)
  | PopR r => match xpush x with v :: l => XOk (setr r v (setp l x)) | [] => XUB UBMem end
  | RepMovsd =>
      let n := xr x RCX in
      match copy_cells (Z.to_nat n) (xr x RSI) (xr x RDI) (xm x) with
      | Some m => XOk (setr RCX 0 (setr RSI (u64 (xr x RSI + 4 * n)) (setr RDI (u64 (xr x RDI + 4 * n)) (setm m x))))
      | None => XUB UBMem
      end
  | RepMovsb =>
      let n := xr x RCX in
      match copy_bytes (Z.to_nat n) (xr x RSI) (xr x RDI) (xm x) with
      | Some m => XOk (setr RCX 0 (setr RSI (u64 (xr x RSI + n)) (setr RDI (u64 (xr x RDI + n)) (setm m x))))
      | None => XUB UBMem
      end
  | RepStosd =>
      let n := xr x RCX in
      match store_cells (Z.to_nat n) (xr x RDI) (xr x RAX) (xm x) with
      | Some m => XOk (setr RCX 0 (setr RDI (u64 (xr x RDI + 4 * n)) (setm m x)))
      | None => XUB UBMem
      end
  | JFwd _ _ => XOk x                     (* see [xrun] *)
  | JErr c e => match xf x with None => XUB UBArith | Some f => if cond c f then XErr e x else XOk x end
  | JErrAx c => match xf x with None => XUB UBArith | Some f => if cond c f then XErr (wrap32 (xr x RAX)) x else XOk x end
  | JRep c => match xf x with
              | None => XUB UBArith
              | Some f => if cond c f then match exn x with Some e => XErr e x | None => XUB UBAssert end else XOk x
              end
  | JExn => match exn x with Some e => XErr e x | None => XOk (setf None x) end
  | MovdX k s => XOk (setx k (u32 (xr x s)) x)
  | MovdR d k => XOk (setr d (u32 (getx k x)) x)
  | XorpsSelf k => XOk (setx k 0 x)
  | Sse o => XOk (setx X0 (u32 (p_arith fp o (wrap32 (x0 x)) (wrap32 (x1 x)))) x)
  | Ucomi a b => XOk (setf (Some (ucomi_flags (p_ucomi fp (wrap32 (getx a x)) (wrap32 (getx b x))))) x)
  | Cvtsi2ss s => XOk (setx X0 (u32 (p_of_int fp (wrap32 (xr x s)))) x)
  | Cvtss2si m => match load L m x with Some v => XOk (setr RAX (u32 (p_nearest fp (wrap32 v))) x) | None => XUB UBMem end
  | Cvttss2si m => match load L m x with Some v => XOk (setr RAX (u32 (p_trunc fp (wrap32 v))) x) | None => XUB UBMem end
  | RoundFloor m => match load L m x with Some v => XOk (setx X0 (u32 (p_floor fp (wrap32 v))) x) | None => XUB UBMem end
  | RoundCeil m => match load L m x with Some v => XOk (setx X0 (u32 (p_ceil fp (wrap32 v))) x) | None => XUB UBMem end
  | Cvttss2siX => XOk (setr RAX (u32 (p_trunc fp (wrap32 (x0 x)))) x)
  | CallFmod =>
      let x' := after_call (seen x) (junk RAX) x in
      XOk (setx X0 (u32 (p_fmod fp (wrap32 (x0 x)) (wrap32 (x1 x)))) x')
  | CallNative n =>
      (* the bound function directly, or NativeInvokeThunk, which reports an unbound native *)
      match natives n with
      | None => XUB UBMem
      | Some nt =>
        match n_fn nt with
        | None => XOk (sete (Some (err_code INVALID_NATIVE)) (after_call (seen x) (junk RAX) x))
        | Some f =>
          match f (seen x) with
          | Ok v r => XOk (after_call r (u32 v) x)
          | Fail e r => XOk (sete (Some (err_code e)) (after_call r (junk RAX) x))
          | UB u => XUB u
          end
        end
      end
  | CallGen n z =>
      match generateArray n (wrap32 (xr x R14 - base)) z (seen x) with
      | Ok _ r => XOk (after_call r 0 x)
      | Fail e r => XOk (after_call r (err_code e) x)
      | UB u => XUB u
      end
  | CallInit g a iv cp fl v =>
      match initArray (wrap32 (xr x g)) a iv cp fl v (seen x) with
      | Ok _ r => XOk (after_call r 1 x)
      | Fail e r => XOk (sete (Some (err_code e)) (after_call r 0 x))
      | UB u => XUB u
      end
  end.

Fixpoint xrun (code : list xi) (skip : nat) (x : xst) : xres :=
  match code with
  | [] => match skip with O => XOk x | S _ => XUB UBAssert end
  | i :: rest =>
    match skip with
    | S k => xrun rest k x
    | O =>
      match i with
      | JFwd c n =>
        match xf x with
        | None => XUB UBArith
        | Some f => if cond c f then xrun rest n x else xrun rest 0 x
        end
      | _ => match xexec i x with XOk x' => xrun rest 0 x' | r => r end
      end
    end
  end.

(* ---- What the compiler emits ---- *)
Variable mi : meth.
Notation so := (StackOffset mi).     (* jit.cpp:353-355, resolved when the code is emitted *)

Definition reg_of (r : reg) : gpr := match r with Pri => RAX | Alt => RDX end.

(* jit_x64.cpp:1632-1645. *)
Definition emitCheckAddress (r : gpr) (read_size : Z) : list xi :=
  [ CmpI L r (mem_size env - read_size + 1); JErr not_below SP_ERROR_MEMACCESS;
    CmpM r (Ctx CHp); JFwd below 3; Lea RCX (Idx R15 r 1 0); Cmp Q RCX R14; JErr below SP_ERROR_MEMACCESS ].

(* jit_x64.cpp:439-457. *)
Definition OpToCondition (c : cmpop) : ccode :=
  match c with
  | Interp_Model.Eq => equal | Neq => not_equal | Sless => less | Sleq => not_greater | Sgrtr => greater | _ => not_less
  end.

(* jit_x64.cpp:359-374. *)
Definition emitHEAP (amount : Z) : list xi :=
  [ Load L RDX (Ctx CHp); AddMI CHp amount ] ++
  (if amount <? 0
   then [ CmpMI (Ctx CHp) (data_size env); JErr below (err_code HEAPMIN) ]
   else [ Load L RCX (Ctx CHp); Lea RCX (Idx R15 RCX 1 STACK_MARGIN); Cmp L RCX R14; JErr above (err_code HEAPLOW) ]).

(* jit_x64.cpp:536-562. *)
Definition emitSDIV (dest : reg) : list xi :=
  let dividend := reg_of dest in
  let divisor := reg_of (match dest with Pri => Alt | Alt => Pri end) in
  [ Test L divisor divisor; JErr equal (err_code DIVIDE_BY_ZERO);
    CmpI L divisor (-1); JFwd not_equal 2; CmpI L dividend (- two31); JErr equal (err_code INTEGER_OVERFLOW);
    MovRR L RCX divisor; MovRR L (match dest with Pri => RDX | Alt => RAX end) dividend;
    ShiftI L SSar RDX 31; Idiv L RCX ].

(* jit_x64.cpp:1282-1310, 1318-1346: the part SDIV_ALT_I64 and SMOD_ALT_I64 share. *)
Definition emitDiv64 : list xi :=
  emitCheckAddress RAX 8 ++ emitCheckAddress RDX 8 ++
  [ Load Q RAX (Idx R15 RAX 1 0); Load Q RDX (Idx R15 RDX 1 0);
    Test Q RAX RAX; JErr equal (err_code DIVIDE_BY_ZERO);
    CmpI Q RAX (-1); JFwd not_equal 3; MovRI Q RCX (- two63); Cmp Q RDX RCX; JErr equal (err_code INTEGER_OVERFLOW);
    MovRR Q RCX RAX; MovRR Q RAX RDX; ShiftI Q SSar RDX 63; Idiv Q RCX ].

(* jit_x64.cpp:1268-1280, 1353-1463: both operands, the operation, the slot. *)
Definition emitBin64 (slot : Z) (right : gpr) (ops : list xi) (res : gpr) : list xi :=
  emitCheckAddress RAX 8 ++ emitCheckAddress RDX 8 ++
  [ Load Q RDI (Idx R15 RAX 1 0); Load Q right (Idx R15 RDX 1 0); Lea RAX (At RBX (so slot)) ] ++ ops ++
  [ Store Q (At RAX 0) res; Alu Q ASub RAX R15 ].

Fixpoint pushes (k : Z) (f : Z -> list xi) (l : list Z) : list xi :=
  match l with [] => [] | v :: l' => f v ++ Store L (At R14 (- (4 * k))) RCX :: pushes (k + 1) f l' end.
Fixpoint pushes_c (k : Z) (l : list Z) : list xi :=
  match l with [] => [] | v :: l' => StoreI (At R14 (- (4 * k))) v :: pushes_c (k + 1) l' end.

(* The internal opcodes for float natives: include/smx/smx-v1-opcodes.h:235-255. *)
Definition OP_RND_TO_NEAREST : Z := 224.
Definition OP_RND_TO_FLOOR : Z := 225.
Definition OP_RND_TO_CEIL : Z := 226.
Definition OP_RND_TO_ZERO : Z := 227.

(* jit_x64.cpp:947-1021; the other visitors of these opcodes give up. *)
Definition emit_fstack (f : fstack) : option (list xi) :=
  let pop := AluI Q AAdd R14 4 in
  match f with
  | FABS => Some [ Load L RAX (At R14 0); AluI L AAnd RAX 2147483647; pop ]
  | FUN n =>
    if n =? OP_RND_TO_NEAREST then Some [ Cvtss2si (At R14 0); pop ]
    else if n =? OP_RND_TO_FLOOR then Some [ RoundFloor (At R14 0); Cvttss2siX; pop ]
    else if n =? OP_RND_TO_CEIL then Some [ RoundCeil (At R14 0); Cvttss2siX; pop ]
    else if n =? OP_RND_TO_ZERO then Some [ Cvttss2si (At R14 0); pop ]
    else None
  | _ => None
  end.

(* jit_x64.cpp:771-846: the parameter count, then the call: alt and hp_ are saved around it, stk is made relative for the
   runtime's sp_. *)
Definition emitNative (n nparams : Z) : list xi :=
  [ StoreI (At R14 (-4)) nparams; AluI Q ASub R14 4;
    PushR RDX; Load L RAX (Ctx CHp); PushR RAX;
    Alu Q ASub R14 R15; Store L (Ctx CSp) R14;
    CallNative n;
    PopR RDX; Store L (Ctx CHp) RDX; PopR RDX; Alu Q AAdd R14 R15;
    JExn;
    AluI Q AAdd R14 (wrap32 (u32 (nparams + 1) * 4)) ].

(* jit_x64.cpp:1556-1596: ucomiss(left, right) is encoded with right as the first operand (assembler-x64.h:875-877). *)
Definition emitCompareF32 (c : cmpop) : list xi :=
  [ MovdX X0 RAX; MovdX X1 RDX ] ++
  match c with
  | Sless => [ Ucomi X1 X0; MovRI L RAX 0; SetAl above ]
  | Sleq => [ Ucomi X1 X0; MovRI L RAX 0; SetAl not_below ]
  | Sgrtr => [ Ucomi X0 X1; MovRI L RAX 0; SetAl above ]
  | Sgeq => [ Ucomi X0 X1; MovRI L RAX 0; SetAl not_below ]
  | Interp_Model.Eq => [ Ucomi X0 X1; MovRI L RAX 0; JFwd parity 1; SetAl equal ]
  | _ => [ Ucomi X0 X1; MovRI L RAX 1; JFwd parity 1; SetAl not_equal ]
  end.

Definition emit_f32_2 (op : Z) : option (list xi) :=
  let arith x y o := Some [ MovdX x RAX; MovdX y RDX; Sse o; MovdR RAX X0 ] in
  match op with
  | 175 => arith X0 X1 SMul           (* jit_x64.cpp:1503-1533 *)
  | 176 => Some [ MovdX X0 RDX; MovdX X1 RAX; Sse SDiv; MovdR RAX X0 ]
  | 177 => arith X0 X1 SAdd
  | 178 => Some [ MovdX X0 RDX; MovdX X1 RAX; Sse SSub; MovdR RAX X0 ]
  | _ => None
  end.

(* One visit function per instruction, in the order of vm/x64/jit_x64.cpp:202-1630; None where it asserts and gives up. *)
Definition emit (i : instr) : option (list xi) :=
  match i with
  | NOP | BREAK => Some []
  | LOAD r a => Some [ Load L (reg_of r) (At R15 a) ]
  | LOAD_S r o => Some [ Load L (reg_of r) (At RBX (so o)) ]
  | LREF_S r o => Some [ Load L (reg_of r) (At RBX (so o)); Load L (reg_of r) (Idx R15 (reg_of r) 1 0) ]
  | LOAD_I => Some (emitCheckAddress RAX 4 ++ [ Load L RAX (Idx R15 RAX 1 0) ])
  | LODB_I w =>
      Some (emitCheckAddress RAX 4 ++ [ Load L RAX (Idx R15 RAX 1 0) ] ++
            (if w =? 1 then [ AluI L AAnd RAX 255 ] else if w =? 2 then [ AluI L AAnd RAX 65535 ] else []))
  | CONST r v => Some [ MovRI L (reg_of r) v ]
  | ADDR r o => Some [ Load L (reg_of r) (Ctx CFrm); AluI L AAdd (reg_of r) (so o) ]
  | STOR a r => Some [ Store L (At R15 a) (reg_of r) ]
  | STOR_S o r => Some [ Store L (At RBX (so o)) (reg_of r) ]
  | STOR_S_C o v => Some [ StoreI (At RBX (so o)) v ]
  | SREF_S o r => Some [ Load L RCX (At RBX (so o)); Store L (Idx R15 RCX 1 0) (reg_of r) ]
  | STOR_I => Some (emitCheckAddress RDX 4 ++ [ Store L (Idx R15 RDX 1 0) RAX ])
  | STRB_I w =>
      (* movw is encoded without the operand-size prefix (assembler-x64.h:642-644): it stores 32 bits *)
      Some (emitCheckAddress RDX 4 ++
            (if w =? 1 then [ StoreB (Idx R15 RDX 1 0) RAX ]
             else if w =? 2 then [ Store L (Idx R15 RDX 1 0) RAX ]
             else if w =? 4 then [ Store L (Idx R15 RDX 1 0) RAX ] else []))
  | IDXADDR => Some [ Movsxd RAX RAX; Lea RAX (Idx RDX RAX 4 0) ]
  | MOVE Pri => Some [ MovRR Q RAX RDX ]
  | MOVE Alt => Some [ MovRR Q RDX RAX ]
  | XCHG => Some [ Xchg RAX RDX ]
  | PUSHR r => Some [ Store L (At R14 (-4)) (reg_of r); AluI Q ASub R14 4 ]
  | PUSH_C l => Some (pushes_c 1 l ++ [ AluI Q ASub R14 (4 * Z.of_nat (length l)) ])
  | PUSH_S l => Some (pushes 1 (fun o => [ Load L RCX (At RBX (so o)) ]) l ++ [ AluI Q ASub R14 (4 * Z.of_nat (length l)) ])
  | PUSH_ADR l =>
      Some ([ Alu Q ASub RBX R15 ] ++ pushes 1 (fun o => [ Lea RCX (At RBX (so o)) ]) l ++
            [ AluI Q ASub R14 (4 * Z.of_nat (length l)); Alu Q AAdd RBX R15 ])
  | POP r => Some [ Load L (reg_of r) (At R14 0); AluI Q AAdd R14 4 ]
  | STACK a => Some [ AluI Q AAdd R14 a ]
  | HEAP a => Some (emitHEAP a)
  | SHL => Some [ MovRR L RCX RDX; ShiftCl L SShl RAX ]
  | SHR => Some [ MovRR L RCX RDX; ShiftCl L SShr RAX ]
  | SSHR => Some [ MovRR L RCX RDX; ShiftCl L SSar RAX ]
  | SHL_C r n => Some [ ShiftI L SShl (reg_of r) n ]
  | SMUL => Some [ Imul L RAX RDX ]
  | SDIV r => Some (emitSDIV r)
  | SDIV_ALT_I32 => Some (emitSDIV Alt)
  | SMOD_ALT_I32 => Some (emitSDIV Alt ++ [ MovRR L RAX RDX ])
  | ADD => Some [ Alu L AAdd RAX RDX ]
  | SUB_ALT => Some [ MovRR L RCX RDX; Alu L ASub RCX RAX; MovRR L RAX RCX ]
  | AND => Some [ Alu L AAnd RAX RDX ]
  | OR => Some [ Alu L AOr RAX RDX ]
  | XOR => Some [ Alu L AXor RAX RDX ]
  | NOT => Some [ Test L RAX RAX; MovRI L RAX 0; SetAl equal ]
  | NEG => Some [ Neg L RAX ]
  | INVERT => Some [ Not L RAX ]
  | ADD_C v => Some [ AluI L AAdd RAX v ]
  | SMUL_C v => Some [ ImulI RAX RAX v ]
  | ZEROR r => Some [ Alu L AXor (reg_of r) (reg_of r) ]
  | ZERO_S o => Some [ StoreI (At RBX (so o)) 0 ]
  | CMP c => Some [ Cmp L RAX RDX; MovRI L RAX 0; SetAl (OpToCondition c) ]
  | EQ_C r v => Some [ CmpI L (reg_of r) v; MovRI L RAX 0; SetAl equal ]
  | INCR r => Some [ AluI L AAdd (reg_of r) 1 ]
  | DECR r => Some [ AluI L ASub (reg_of r) 1 ]
  | MOVS n =>
      let dwords := u32 n / 4 in
      let bytes := u32 n mod 4 in
      Some ([ Lea RDI (Idx R15 RDX 1 0); Lea RSI (Idx R15 RAX 1 0) ] ++
            (if dwords =? 0 then [] else [ MovRI L RCX dwords; RepMovsd ]) ++
            (if bytes =? 0 then [] else [ MovRI L RCX bytes; RepMovsb ]))
  | FILL n => Some [ Lea RDI (Idx R15 RDX 1 0); MovRI L RCX (u32 n / 4); RepStosd ]
  | BOUNDS n => Some [ CmpI L RAX n; JErr above (err_code ARRAY_BOUNDS) ]
  | SWAP r => Some [ Load L RCX (At R14 0); Store L (At R14 0) (reg_of r); MovRR L (reg_of r) RCX ]
  | SYSREQ_N n k =>
      match natives n with
      | None => None
      | Some nt => match n_fn nt, n_repl nt with Some _, Some f => emit_fstack f | _, _ => Some (emitNative n k) end
      end
  | GENARRAY n z =>
      if n =? 1 then
        Some ([ Load L RDX (Ctx CHp); Load L RCX (At R14 0); CmpI L RCX 0; JErr not_greater (err_code INVALID_ARRAY_SIZE);
                Store L (At R14 0) RDX; Lea RDI (Idx R15 RDX 1 0); Lea RDX (Idx RDX RCX 4 0); Lea R8 (Idx R15 RDX 1 0);
                Cmp Q R8 R14; JErr not_below (err_code HEAPLOW); Store L (Ctx CHp) RDX ] ++
              (if z then [ PushR RAX; Alu L AXor RAX RAX; RepStosd; PopR RAX ] else []))
      else
        Some [ Alu Q ASub R14 R15; Store L (Ctx CSp) R14; Alu Q AAdd R14 R15;
               PushR RAX; CallGen n z; PopR RCX; Test L RAX RAX; JErrAx not_equal; MovRR L RAX RCX;
               AluI Q AAdd R14 ((n - 1) * 4) ]
  | STRADJUST_PRI => Some [ AluI L AAdd RAX 4; ShiftI L SSar RAX 2 ]
  | INITARRAY r a iv cp fl v =>
      if iv =? 0 then
        Some ([ Lea RDI (Idx R15 (reg_of r) 1 0) ] ++
              (if cp =? 0 then [] else [ Lea RSI (At R15 a); MovRI L RCX cp; RepMovsd ]) ++
              (if fl =? 0 then [] else [ MovRI L RAX v; MovRI L RCX fl; RepStosd ]))
      else
        Some [ MovRR Q RCX R14; Alu Q ASub RCX R15; Store L (Ctx CSp) RCX; PushR RDX;
               CallInit (reg_of r) a iv cp fl v; PopR RDX; Test L RAX RAX; JRep equal ]
  | HEAP_SAVE => Some (emitHEAP 4 ++ [ Load L RAX (Ctx CScope); Store L (Idx R15 RDX 1 0) RAX; Store L (Ctx CScope) RDX ])
  | HEAP_RESTORE => Some [ Load L RCX (Ctx CScope); Load L RDX (Idx R15 RCX 1 0); Store L (Ctx CHp) RCX; Store L (Ctx CScope) RDX ]
  | PUSH_I_I64 => Some (emitCheckAddress RAX 8 ++ [ Load Q RCX (Idx R15 RAX 1 0); Store Q (At R14 (-8)) RCX; AluI Q ASub R14 8 ])
  | MOVE_I64 => Some (emitCheckAddress RAX 8 ++ emitCheckAddress RDX 8 ++ [ Load Q RCX (Idx R15 RAX 1 0); Store Q (Idx R15 RDX 1 0) RCX ])
  | CVT_I64 slot => Some [ Movsxd RCX RAX; Lea RAX (At RBX (so slot)); Store Q (At RAX 0) RCX; Alu Q ASub RAX R15 ]
  | TRUNCATE_I64 => Some (emitCheckAddress RAX 8 ++ [ Load L RAX (Idx R15 RAX 1 0) ])
  | TEST_I64 => Some (emitCheckAddress RAX 8 ++ [ Load Q RCX (Idx R15 RAX 1 0); Test Q RCX RCX; SetAl not_equal; Movzxb RAX RAX ])
  | UN64 op slot =>
      Some (emitCheckAddress RAX 8 ++
            [ Load Q RCX (Idx R15 RAX 1 0); match op with Inv64 => Not Q RCX | Neg64 => Neg Q RCX end;
              Lea RAX (At RBX (so slot)); Store Q (At RAX 0) RCX; Alu Q ASub RAX R15 ])
  | BIN64 op slot =>
      Some (match op with
            | Mul64 => emitBin64 slot RSI [ Imul Q RDI RSI ] RDI
            | Add64 => emitBin64 slot RSI [ Alu Q AAdd RDI RSI ] RDI
            | SubAlt64 => emitBin64 slot RSI [ Alu Q ASub RSI RDI ] RSI
            | Shl64 => emitBin64 slot RCX [ ShiftCl Q SShl RDI ] RDI
            | Sshr64 => emitBin64 slot RCX [ ShiftCl Q SSar RDI ] RDI
            | Shr64 => emitBin64 slot RCX [ ShiftCl Q SShr RDI ] RDI
            | Or64 => emitBin64 slot RSI [ Alu Q AOr RDI RSI ] RDI
            | And64 => emitBin64 slot RSI [ Alu Q AAnd RDI RSI ] RDI
            | Xor64 => emitBin64 slot RSI [ Alu Q AXor RDI RSI ] RDI
            | DivAlt64 => emitDiv64 ++ [ MovRR Q RCX RAX; Lea RAX (At RBX (so slot)); Store Q (At RAX 0) RCX; Alu Q ASub RAX R15 ]
            | ModAlt64 => emitDiv64 ++ [ Lea RAX (At RBX (so slot)); Store Q (At RAX 0) RDX; Alu Q ASub RAX R15 ]
            end)
  | STOR_S_C_I64 slot c0 c1 => Some [ MovRI Q RCX (wrap64 (u32 c0 + two32 * c1)); Store Q (At RBX (so slot)) RCX ]
  | CMP64 c =>
      Some (emitCheckAddress RAX 8 ++ emitCheckAddress RDX 8 ++
            [ Load Q RDI (Idx R15 RAX 1 0); Load Q RSI (Idx R15 RDX 1 0); Cmp Q RDI RSI; SetAl (OpToCondition c); Movzxb RAX RAX ])
  | STOR_S_PRI_I64 slot => Some (emitCheckAddress RAX 8 ++ [ Load Q RCX (Idx R15 RAX 1 0); Store Q (At RBX (so slot)) RCX ])
  | ZERO_S_I64 slot => Some [ Alu Q AXor RCX RCX; Store Q (At RBX (so slot)) RCX ]
  | F32_1 173 => Some [ MovdX X0 RAX; XorpsSelf X1; Ucomi X1 X0; SetAl not_equal ]     (* TEST_F32 *)
  | F32_1 174 => Some [ MovRI L RCX two31; Alu L AXor RAX RCX ]                        (* NEG_F32 *)
  | F32_1 185 => Some [ Cvtsi2ss RAX; MovdR RAX X0 ]                                   (* CVT_F32 *)
  | F32_2 179 => Some (emitCompareF32 Interp_Model.Eq)
  | F32_2 180 => Some (emitCompareF32 Neq)
  | F32_2 181 => Some (emitCompareF32 Sless)
  | F32_2 182 => Some (emitCompareF32 Sleq)
  | F32_2 183 => Some (emitCompareF32 Sgrtr)
  | F32_2 184 => Some (emitCompareF32 Sgeq)
  | F32_2 186 => Some [ MovdX X1 RAX; MovdX X0 RDX; CallFmod; MovdR RAX X0 ]           (* MOD_ALT_F32 *)
  | F32_2 op => emit_f32_2 op
  | _ => None
  end.
End Machine.
