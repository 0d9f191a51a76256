(* The assembler method behind each instruction of the compiler's output (X64_Model), and the machine instruction that the
   semantics given to it there stands for. *)
From Verif Require Import Base Interp_Model X64_Model.
From Verif Require Enc_Model Enc_Spec Enc_Meant.

(* Register codes: vm/x64/assembler-x64.h:86-129; condition codes: 149-175. *)
Definition code (r : gpr) : Z :=
  match r with RAX => 0 | RCX => 1 | RDX => 2 | RBX => 3 | RSI => 6 | RDI => 7 | R8 => 8 | R14 => 14 | R15 => 15 end.
Definition xcode (x : xmm) : Z := match x with X0 => 0 | X1 => 1 end.
Definition cccode (c : ccode) : Z :=
  match c with
  | below => 2 | not_below => 3 | equal => 4 | not_equal => 5 | not_above => 6 | above => 7
  | parity => 10 | less => 12 | not_less => 13 | not_greater => 14 | greater => 15
  end.
Definition w64 (w : wide) : bool := match w with Q => true | L => false end.
Definition alucode (o : alu) : Z := match o with AAdd => 0 | AOr => 1 | AAnd => 4 | ASub => 5 | AXor => 6 end.
Definition shiftcode (k : shift) : Z := match k with SShl => 4 | SShr => 5 | SSar => 7 end.
Definition ssecode (o : ssearith) : Z := match o with SAdd => 88 | SMul => 89 | SSub => 92 | SDiv => 94 end.
Definition scalecode (s : Z) : Z := if s =? 1 then 0 else if s =? 2 then 1 else if s =? 4 then 2 else 3.

(* Memory operands in the plugin's memory; the fields of the runtime are reached by host addresses and left out. *)
Definition operand (m : mref) : option Enc_Model.addr :=
  match m with
  | At b d => Some (Enc_Model.ABase (code b) d)
  | Idx b i s d => Some (Enc_Model.AIndex (code b) (code i) (scalecode s) d)
  | Ctx _ => None
  end.
Definition onm (m : mref) (f : Enc_Model.addr -> Enc_Model.call) : option Enc_Model.call :=
  match operand m with Some a => Some (f a) | None => None end.
Notation R := Enc_Model.R.

(* The method called for it in jit_x64.cpp, with its arguments converted to the method's types. *)
Definition method (x : xi) : option Enc_Model.call :=
  match x with
  | MovRR Q d s => Some (Enc_Model.Mov_rr (code d) (code s))
  | MovRR L d s => Some (Enc_Model.Movl_rr (code d) (code s))
  | MovRI Q d v => Some (Enc_Model.Movq_i (code d) v)
  | MovRI L d v => Some (Enc_Model.Movl_i (code d) (wrap32 v))
  | Load w d m => onm m (fun a => Enc_Model.Mov_load (w64 w) (code d) a)
  | Store w m s => onm m (fun a => Enc_Model.Mov_store (w64 w) a (code s))
  | StoreI m v => onm m (fun a => Enc_Model.Movl_mi a v)
  | StoreB m s => onm m (fun a => Enc_Model.Movb (Enc_Model.M a) (code s))
  | Movsxd d s => Some (Enc_Model.Movsxd (code d) (R (code s)))
  | Movzxb d s => Some (Enc_Model.Movzxb (code d) (code s))
  | Lea d m => onm m (fun a => Enc_Model.Lea (code d) a)
  | Alu w o d s => Some (Enc_Model.Alu (w64 w) (alucode o) (R (code d)) (code s))
  | AluI L AAnd d v => Some (Enc_Model.Andl_i (code d) v)
  | AluI w o d v => Some (Enc_Model.Alu_i (w64 w) (alucode o) (R (code d)) v)
  | Cmp w a b => Some (Enc_Model.Alu (w64 w) 7 (R (code a)) (code b))
  | CmpI w a v => Some (Enc_Model.Alu_i (w64 w) 7 (R (code a)) v)
  | CmpM a m => onm m (fun o => Enc_Model.Cmp_load false (code a) o)
  | Test w a b => Some (Enc_Model.Test (w64 w) (R (code a)) (code b))
  | Not w r => Some (Enc_Model.Not (w64 w) (code r))
  | Neg w r => Some (Enc_Model.Neg (w64 w) (code r))
  | ShiftI w k r n => Some (Enc_Model.Shift_i (w64 w) (shiftcode k) (R (code r)) (n mod 256))
  | ShiftCl w k r => Some (Enc_Model.Shift_cl (w64 w) (shiftcode k) (code r))
  | Imul w d s => Some (Enc_Model.Imul (w64 w) (code d) (code s))
  | ImulI d s v => Some (Enc_Model.Imull_i (code d) (code s) v)
  | Idiv w r => Some (Enc_Model.Idiv (w64 w) (code r))
  | Xchg a b => Some (Enc_Model.Xchgq (code a) (code b))
  | SetAl c => Some (Enc_Model.Set_cc (cccode c) (R 0))
  | PushR r => Some (Enc_Model.Push (code r))
  | PopR r => Some (Enc_Model.Pop (code r))
  | RepMovsd => Some Enc_Model.Rep_movsd
  | RepMovsb => Some Enc_Model.Rep_movsb
  | RepStosd => Some Enc_Model.Rep_stosd
  | MovdX k s => Some (Enc_Model.Movd_x (xcode k) (code s))
  | MovdR d k => Some (Enc_Model.Movd_r (code d) (xcode k))
  | XorpsSelf k => Some (Enc_Model.Xorps (xcode k) (xcode k))
  | Sse o => Some (Enc_Model.Sse (ssecode o) 0 1)
  | Ucomi a b => Some (Enc_Model.Ucomiss (R (xcode b)) (xcode a))
  | Cvtsi2ss s => Some (Enc_Model.Cvtsi2ss 0 (R (code s)))
  | Cvtss2si m => onm m (fun a => Enc_Model.Cvtss2si 0 a)
  | Cvttss2si m => onm m (fun a => Enc_Model.Cvttss2si 0 (Enc_Model.M a))
  | RoundFloor m => onm m (fun a => Enc_Model.Roundss 0 a 1)
  | RoundCeil m => onm m (fun a => Enc_Model.Roundss 0 a 2)
  | Cvttss2siX => Some (Enc_Model.Cvttss2si 0 (R 0))
  | AddMI _ _ | CmpMI _ _ | JFwd _ _ | JErr _ _ | JErrAx _ | JExn | JRep _
  | CallFmod | CallNative _ | CallGen _ _ | CallInit _ _ _ _ _ _ => None
  end.

(* The machine instruction with the effect X64_Model gives. *)
Import Enc_Spec.
Definition preg (r : gpr) : place := PReg (code r).
Definition pmem (m : mref) (f : place -> mi) : option mi :=
  match m with
  | At b d => Some (f (PMem (Some (code b)) None d))
  | Idx b i s d => Some (f (PMem (Some (code b)) (Some (code i, s)) d))
  | Ctx _ => None
  end.
Definition size (w : wide) : Z := match w with L => 32 | Q => 64 end.
Definition wanted (x : xi) : option mi :=
  match x with
  | MovRR w d s => Some (IMov (size w) (preg d) (preg s))
  | MovRI Q d v => Some (Enc_Meant.mov_const (code d) v)
  | MovRI L d v => Some (IMovI 32 (preg d) (wrap32 v))
  | Load w d m => pmem m (fun p => IMov (size w) (preg d) p)
  | Store w m s => pmem m (fun p => IMov (size w) p (preg s))
  | StoreI m v => pmem m (fun p => IMovI 32 p v)
  | StoreB m s => pmem m (fun p => IMov 8 p (preg s))
  | Movsxd d s => Some (IMovsxd (code d) (preg s))
  | Movzxb d s => Some (IMovzxb 32 (code d) (preg s))
  | Lea d m => pmem m (fun p => ILea 64 (code d) p)
  | Alu w o d s => Some (IAlu (size w) (alucode o) (preg d) (preg s))
  | AluI w o d v => Some (IAluI (size w) (alucode o) (preg d) v)
  | Cmp w a b => Some (IAlu (size w) 7 (preg a) (preg b))
  | CmpI w a v => Some (IAluI (size w) 7 (preg a) v)
  | CmpM a m => pmem m (fun p => IAlu 32 7 (preg a) p)
  | Test w a b => Some (ITest (size w) (preg a) (preg b))
  | Not w r => Some (INot (size w) (preg r))
  | Neg w r => Some (INeg (size w) (preg r))
  | ShiftI w k r n => Some (IShift (size w) (shiftcode k) (preg r) (Some (n mod size w)))
  | ShiftCl w k r => Some (IShift (size w) (shiftcode k) (preg r) None)
  | Imul w d s => Some (IMul (size w) (code d) (preg s))
  | ImulI d s v => Some (IMulI 32 (code d) (preg s) v)
  | Idiv w r => Some (IDivide (size w) (preg r))
  | Xchg a b => Some (match a with RAX => IXchg 64 (preg b) (preg a) | _ => IXchg 64 (preg a) (preg b) end)
  | SetAl c => Some (ISet (cccode c) (PReg 0))
  | PushR r => Some (IPush (code r))
  | PopR r => Some (IPop (code r))
  | RepMovsd => Some (IRepMovs 32)
  | RepMovsb => Some (IRepMovs 8)
  | RepStosd => Some (IRepStos 32)
  | MovdX k s => Some (IMovdTo 32 (xcode k) (preg s))
  | MovdR d k => Some (IMovdFrom 32 (preg d) (xcode k))
  | XorpsSelf k => Some (IXorps (xcode k) (PReg (xcode k)))
  | Sse o => Some (ISse (ssecode o) 0 (PReg 1))
  | Ucomi a b => Some (IUcomiss (xcode a) (PReg (xcode b)))
  | Cvtsi2ss s => Some (ICvtsi2ss 32 0 (preg s))
  | Cvtss2si m => pmem m (fun p => ICvtss2si 32 0 p)
  | Cvttss2si m => pmem m (fun p => ICvttss2si 32 0 p)
  | RoundFloor m => pmem m (fun p => IRoundss 0 p 1)
  | RoundCeil m => pmem m (fun p => IRoundss 0 p 2)
  | Cvttss2siX => Some (ICvttss2si 32 0 (PReg 0))
  | AddMI _ _ | CmpMI _ _ | JFwd _ _ | JErr _ _ | JErrAx _ | JExn | JRep _
  | CallFmod | CallNative _ | CallGen _ _ | CallInit _ _ _ _ _ _ => None
  end.

(* Displacements and immediates fit their 32 bits. *)
Definition fits_m (m : mref) : bool :=
  match m with At _ d => Enc_Meant.i32 d | Idx _ _ _ d => Enc_Meant.i32 d | Ctx _ => true end.
Definition fits (x : xi) : bool :=
  match x with
  | MovRI Q _ v => Enc_Meant.i64 v
  | Load _ _ m | Store _ m _ | StoreB m _ | Lea _ m | CmpM _ m | Cvtss2si m | Cvttss2si m | RoundFloor m | RoundCeil m => fits_m m
  | StoreI m v => fits_m m && Enc_Meant.i32 v
  | AluI _ _ _ v | CmpI _ _ v | ImulI _ _ v => Enc_Meant.i32 v
  | _ => true
  end.
(* The bytes appended for [x] are the machine instruction [x] stands for. *)
Definition emitted_right (x : xi) : Prop :=
  match method x, wanted x with
  | Some c, Some i => forall t, Enc_Spec.decode (Enc_Model.asm c ++ t) = Some (i, t)
  | None, None => True
  | _, _ => False
  end.
