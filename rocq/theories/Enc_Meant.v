(* The instruction each method of the assembler is named after, and the arguments it takes. *)
From Verif Require Import Base Enc_Model Enc_Spec.

(* The memory an operand's constructor describes. *)
Definition names (a : addr) : place :=
  match a with
  | ABase r d => PMem (Some r) None d
  | AScale b _ d => PMem (Some b) None d
  | AIndex b i s d => PMem (Some b) (Some (i, 2 ^ s)) d
  | AAbs v => PMem None None v
  end.
Definition at_rm (x : rm) : place := match x with R r => PReg r | M a => names a end.
Definition bits (w64 : bool) : Z := if w64 then 64 else 32.
(* The constant a movq loads: a 32-bit move clears the upper half. *)
Definition mov_const (d v : Z) : mi :=
  if (0 <=? v) && (v <=? 4294967295) then IMovI 32 (PReg d) (signed two32 v) else IMovI 64 (PReg d) v.

Definition meant (c : call) : mi :=
  match c with
  | Mov_rr d s => IMov 64 (PReg d) (PReg s)
  | Movl_rr d s => IMov 32 (PReg d) (PReg s)
  | Mov_load w d a => IMov (bits w) (PReg d) (names a)
  | Mov_store w a s => IMov (bits w) (names a) (PReg s)
  | Movq_i d v => mov_const d v
  | Movl_i d v => IMovI 32 (PReg d) v
  | Movl_mi a v => IMovI 32 (names a) v
  | Movw a s => IMov 16 (names a) (PReg s)
  | Movb x s => IMov 8 (at_rm x) (PReg s)
  | Movsxd d x => IMovsxd d (at_rm x)
  | Movzxb d s => IMovzxb 32 d (PReg s)
  | Lea d a => ILea 64 d (names a)
  | Alu w o x s => IAlu (bits w) o (at_rm x) (PReg s)
  | Alu_i w o x v => IAluI (bits w) o (at_rm x) v
  | Andl_i d v => IAluI 32 4 (PReg d) v
  | Cmp_load w l a => IAlu (bits w) 7 (PReg l) (names a)
  | Test w x r => ITest (bits w) (at_rm x) (PReg r)
  | Testq_i x v => ITestI 64 (at_rm x) v
  | Not w r => INot (bits w) (PReg r)
  | Neg w r => INeg (bits w) (PReg r)
  | Idiv w r => IDivide (bits w) (PReg r)
  | Shift_i w o x n => IShift (bits w) o (at_rm x) (Some (n mod bits w))
  | Shift_cl w o r => IShift (bits w) o (PReg r) None
  | Imul w d s => IMul (bits w) d (PReg s)
  | Imull_i d s v => IMulI 32 d (PReg s) v
  | Xchgq d s => if s =? rax then IXchg 64 (PReg d) (PReg s) else if d =? rax then IXchg 64 (PReg s) (PReg d)
                 else IXchg 64 (PReg d) (PReg s)
  | Set_cc cc x => ISet cc (at_rm x)
  | Push r => IPush r | Push_i v => IPushI v | Pop r => IPop r
  | Call_r r => ICall (PReg r)
  | Jmp_rm x => IJump (at_rm x)
  | Leave => ILeave | Ret => IRet | Cld => ICld
  | Rep_movsb => IRepMovs 8 | Rep_movsd => IRepMovs 32 | Rep_stosd => IRepStos 32
  | Breakpoint => IInt3
  | Movd_x d s => IMovdTo 32 d (PReg s)
  | Movd_r d s => IMovdFrom 32 (PReg d) s
  | Sse o d s => ISse o d (PReg s)
  | Xorps d s => IXorps d (PReg s)
  | Ucomiss (R l) r => IUcomiss l (PReg r)
  | Ucomiss (M a) r => IUcomiss r (names a)                 (* compares the other way round: not [sound] below *)
  | Cvtsi2ss d x => ICvtsi2ss 32 d (at_rm x)
  | Cvtss2si d a => ICvtss2si 32 d (names a)
  | Cvttss2si d x => ICvttss2si 32 d (at_rm x)
  | Roundss d a m => IRoundss d (names a) m
  | Movq_to_address v s => if s =? rax then IStoreAbs 64 v else IMov 64 (PMem None None v) (PReg s)
  | Movq_from_address d v => if d =? rax then ILoadAbs 64 v else IMov 64 (PReg d) (PMem None None v)
  end.

(* ---- The arguments a method can be given (by the C++ types, and the assertion on an index) ---- *)
Definition reg (r : Z) : bool := (0 <=? r) && (r <=? 15).
Definition i32 (v : Z) : bool := (- two31 <=? v) && (v <? two31).
Definition i64 (v : Z) : bool := (- two63 <=? v) && (v <? two63).
Definition u8 (v : Z) : bool := (0 <=? v) && (v <? 256).
Definition ok_addr (a : addr) : bool :=
  match a with
  | ABase r d => reg r && i32 d
  | AScale b s d => reg b && (0 <=? s) && (s <=? 3) && i32 d
  | AIndex b i s d => reg b && reg i && negb (i =? 4) && (0 <=? s) && (s <=? 3) && i32 d
  | AAbs v => i32 v
  end.
Definition ok_rm (x : rm) : bool := match x with R r => reg r | M a => ok_addr a end.
Definition alu_op (o : Z) : bool := (0 <=? o) && (o <=? 7).
Definition takes (c : call) : bool :=
  match c with
  | Mov_rr d s | Movl_rr d s | Movzxb d s | Imul _ d s | Xchgq d s | Movd_x d s | Movd_r d s | Xorps d s => reg d && reg s
  | Mov_load _ r a | Mov_store _ a r | Movw a r | Lea r a | Cmp_load _ r a | Cvtss2si r a => reg r && ok_addr a
  | Movq_i d v => reg d && i64 v
  | Movl_i d v | Andl_i d v => reg d && i32 v
  | Movl_mi a v => ok_addr a && i32 v
  | Movb x r | Movsxd r x | Test _ x r | Ucomiss x r | Cvtsi2ss r x | Cvttss2si r x => ok_rm x && reg r
  | Alu _ o x s => alu_op o && ok_rm x && reg s
  | Alu_i _ o x v => alu_op o && ok_rm x && i32 v
  | Testq_i x v => ok_rm x && i32 v
  | Not _ r | Neg _ r | Idiv _ r | Push r | Pop r | Call_r r => reg r
  | Shift_i _ o x n => is_shift o && ok_rm x && u8 n
  | Shift_cl _ o r => is_shift o && reg r
  | Imull_i d s v => reg d && reg s && i32 v
  | Set_cc cc x => (0 <=? cc) && (cc <=? 15) && ok_rm x
  | Push_i v => i32 v
  | Jmp_rm x => ok_rm x
  | Leave | Ret | Cld | Rep_movsb | Rep_movsd | Rep_stosd | Breakpoint => true
  | Sse o d s => ((o =? 88) || (o =? 89) || (o =? 92) || (o =? 94)) && reg d && reg s
  | Roundss d a m => reg d && ok_addr a && ((m =? 1) || (m =? 2))
  | Movq_to_address v r | Movq_from_address r v => reg r && (if r =? rax then i64 v else i32 v)
  end.

(* ---- The arguments on which the method is right ---- *)
Definition low (r : Z) : bool := r <? 8.
Definition byte_reg (x : rm) : bool := match x with R r => (r <? 4) || (8 <=? r) | M _ => true end.
Definition sound (c : call) : bool :=
  match c with
  | Alu_i true _ (R r) v => negb (r =? 0) || is_i8 v
  | Xchgq d s => if s =? 0 then low d else low s
  | Movw _ _ => false
  | Movb x s => byte_reg x && byte_reg (R s)
  | Movzxb _ s => byte_reg (R s)
  | Set_cc _ x => byte_reg x
  | Movd_r d s => (d =? s) && low d
  | Movd_x d _ | Sse _ d _ | Cvtsi2ss d _ | Cvtss2si d _ | Cvttss2si d _ | Roundss d _ _ => low d
  | Xorps d s => d =? s
  | Ucomiss (R l) r => l =? r
  | Ucomiss (M _) _ => false
  | _ => true
  end.
