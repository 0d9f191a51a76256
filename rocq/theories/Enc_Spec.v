(* What bytes mean to an x86-64 processor in 64-bit mode: the part of its decoding that concerns the instructions the assembler
   has methods for, after the processor's manual (legacy prefixes 66 and F3, REX, ModR/M, SIB, displacement, immediate).
   Written without reference to the assembler. *)
From Verif Require Import Base.

(* Where an operand is.  In an instruction on xmm registers a register operand is an xmm register where its documentation says so. *)
Inductive place :=
| PReg (r : Z)
| PHigh (r : Z)                                                     (* ah, ch, dh, bh *)
| PMem (base : option Z) (index : option (Z * Z)) (disp : Z)        (* base + index * scale + disp *)
| PRip (disp : Z).                                                  (* the end of the instruction + disp *)

(* Instructions; [w] is the operand size in bits.  Immediates and displacements are signed. *)
Inductive mi :=
| IAlu (w o : Z) (dst src : place) | IAluI (w o : Z) (dst : place) (v : Z)   (* o: 0 add 1 or 2 adc 3 sbb 4 and 5 sub 6 xor 7 cmp *)
| IMov (w : Z) (dst src : place) | IMovI (w : Z) (dst : place) (v : Z)
| ILoadAbs (w a : Z) | IStoreAbs (w a : Z)                          (* rax and the 64-bit address a *)
| IMovsxd (d : Z) (src : place) | IMovzxb (w d : Z) (src : place)
| ILea (w d : Z) (src : place)
| ITest (w : Z) (a b : place) | ITestI (w : Z) (a : place) (v : Z)
| INot (w : Z) (x : place) | INeg (w : Z) (x : place) | IDivide (w : Z) (x : place)
| IShift (w o : Z) (x : place) (n : option Z)                       (* o: 4 shl 5 shr 7 sar; None: by cl *)
| IMul (w d : Z) (src : place) | IMulI (w d : Z) (src : place) (v : Z)
| IXchg (w : Z) (a b : place) | ISet (cc : Z) (x : place)
| IPush (r : Z) | IPop (r : Z) | IPushI (v : Z)
| ICall (x : place) | IJump (x : place) | ICallRel (d : Z) | IJumpRel (d : Z) | IJcc (cc d : Z)
| ILeave | IRet | ICld | IInt3 | ISignAx (w : Z) | ISignDx (w : Z)
| IRepMovs (w : Z) | IRepStos (w : Z)
| IMovdTo (w x : Z) (src : place) | IMovdFrom (w : Z) (dst : place) (x : Z)
| ISse (o x : Z) (src : place)                                      (* o: 0x58 addss 0x59 mulss 0x5c subss 0x5e divss *)
| IXorps (x : Z) (src : place) | IUcomiss (x : Z) (src : place)     (* x compared with src *)
| ICvtsi2ss (w x : Z) (src : place) | ICvtss2si (w r : Z) (src : place) | ICvttss2si (w r : Z) (src : place)
| IRoundss (x : Z) (src : place) (mode : Z).

(* ---- Little-endian signed numbers ---- *)
Definition signed (n v : Z) : Z := if v <? n / 2 then v else v - n.
Definition get8 (l : list Z) : option (Z * list Z) := match l with b :: t => Some (signed 256 b, t) | _ => None end.
Definition get32 (l : list Z) : option (Z * list Z) :=
  match l with
  | a :: b :: c :: d :: t => Some (signed two32 (a + 256 * (b + 256 * (c + 256 * d))), t)
  | _ => None
  end.
Definition get64 (l : list Z) : option (Z * list Z) :=
  match l with
  | a :: b :: c :: d :: a' :: b' :: c' :: d' :: t =>
    Some (signed two64 (a + 256 * (b + 256 * (c + 256 * (d + 256 * (a' + 256 * (b' + 256 * (c' + 256 * d'))))))), t)
  | _ => None
  end.
Definition onto {A B : Type} (x : option (A * list Z)) (f : A -> B) : option (B * list Z) :=
  match x with Some (a, t) => Some (f a, t) | None => None end.

(* ---- ModR/M, SIB and displacement ---- *)
Definition rexW (x : Z) := x / 8 mod 2.
Definition rexR (x : Z) := x / 4 mod 2.
Definition rexX (x : Z) := x / 2 mod 2.
Definition rexB (x : Z) := x mod 2.

Definition displaced (md : Z) (p : Z -> place) (l : list Z) : option (place * list Z) :=
  if md =? 0 then Some (p 0, l) else if md =? 1 then onto (get8 l) p else onto (get32 l) p.
Definition get_sib (x md : Z) (l : list Z) : option (place * list Z) :=
  match l with
  | [] => None
  | s :: t =>
    let i := s / 8 mod 8 + 8 * rexX x in
    let index := if i =? 4 then None else Some (i, 2 ^ (s / 64)) in
    let b := s mod 8 in
    if (b =? 5) && (md =? 0) then onto (get32 t) (PMem None index)
    else displaced md (PMem (Some (b + 8 * rexB x)) index) t
  end.
(* The reg field (with REX.R), the reg field alone, and the place the rest names. *)
Definition get_modrm (x : Z) (l : list Z) : option ((Z * Z * place) * list Z) :=
  match l with
  | [] => None
  | m :: t =>
    let md := m / 64 in
    let n := m mod 8 in
    onto (if md =? 3 then Some (PReg (n + 8 * rexB x), t)
          else if n =? 4 then get_sib x md t
          else if (n =? 5) && (md =? 0) then onto (get32 t) PRip
          else displaced md (PMem (Some (n + 8 * rexB x)) None) t)
         (fun p => (m / 8 mod 8 + 8 * rexR x, m / 8 mod 8, p))
  end.
(* A byte register: without a REX prefix 4 to 7 are the second bytes of rax, rcx, rdx and rbx. *)
Definition byte_place (rex : option Z) (p : place) : place :=
  match p, rex with
  | PReg r, None => if (4 <=? r) && (r <=? 7) then PHigh (r - 4) else p
  | _, _ => p
  end.

(* ---- Opcodes ---- *)
Inductive form :=
| FRm (f : option Z -> Z -> Z -> Z -> place -> option mi)           (* ModR/M; given REX, size, reg, reg field, place *)
| FRmI8 (f : option Z -> Z -> Z -> Z -> place -> Z -> option mi)    (* and a signed byte *)
| FRmI32 (f : option Z -> Z -> Z -> Z -> place -> Z -> option mi)
| FOp (f : Z -> Z -> mi)                                            (* nothing; given size and REX.B * 8 *)
| FI8 (f : Z -> mi)
| FI32 (f : Z -> Z -> Z -> mi)
| FI64 (f : Z -> Z -> Z -> mi).
Inductive prefix := NoPrefix | P66 | PF3.

Definition grp3 (_ : option Z) (w _ n : Z) (p : place) : option mi :=
  if n =? 2 then Some (INot w p) else if n =? 3 then Some (INeg w p) else if n =? 7 then Some (IDivide w p) else None.
Definition grp5 (_ : option Z) (_ _ n : Z) (p : place) : option mi :=
  if n =? 2 then Some (ICall p) else if n =? 4 then Some (IJump p) else None.
Definition is_shift (n : Z) : bool := (n =? 4) || (n =? 5) || (n =? 7).

(* One-byte opcodes.  [f7]: the reg field of a following ModR/M byte, on which the presence of an immediate depends. *)
Definition form1 (pf : prefix) (op f7 : Z) : option form :=
  match pf with
  | PF3 => if op =? 164 then Some (FOp (fun _ _ => IRepMovs 8)) else if op =? 165 then Some (FOp (fun w _ => IRepMovs w))
           else if op =? 171 then Some (FOp (fun w _ => IRepStos w)) else None
  | P66 => None
  | NoPrefix =>
    if (op <? 64) && (op mod 8 =? 1) then Some (FRm (fun _ w r _ p => Some (IAlu w (op / 8) p (PReg r))))
    else if (op <? 64) && (op mod 8 =? 3) then Some (FRm (fun _ w r _ p => Some (IAlu w (op / 8) (PReg r) p)))
    else if (op <? 64) && (op mod 8 =? 5) then Some (FI32 (fun w _ v => IAluI w (op / 8) (PReg 0) v))
    else if (80 <=? op) && (op <? 88) then Some (FOp (fun _ b => IPush (op - 80 + b)))
    else if (88 <=? op) && (op <? 96) then Some (FOp (fun _ b => IPop (op - 88 + b)))
    else if op =? 99 then Some (FRm (fun _ w r _ p => if w =? 64 then Some (IMovsxd r p) else None))
    else if op =? 104 then Some (FI32 (fun _ _ v => IPushI v))
    else if op =? 105 then Some (FRmI32 (fun _ w r _ p v => Some (IMulI w r p v)))
    else if op =? 106 then Some (FI8 IPushI)
    else if op =? 107 then Some (FRmI8 (fun _ w r _ p v => Some (IMulI w r p v)))
    else if (112 <=? op) && (op <? 128) then Some (FI8 (IJcc (op - 112)))
    else if op =? 129 then Some (FRmI32 (fun _ w _ n p v => Some (IAluI w n p v)))
    else if op =? 131 then Some (FRmI8 (fun _ w _ n p v => Some (IAluI w n p v)))
    else if op =? 133 then Some (FRm (fun _ w r _ p => Some (ITest w p (PReg r))))
    else if op =? 135 then Some (FRm (fun _ w r _ p => Some (IXchg w p (PReg r))))
    else if op =? 136 then Some (FRm (fun rex _ r _ p => Some (IMov 8 (byte_place rex p) (byte_place rex (PReg r)))))
    else if op =? 137 then Some (FRm (fun _ w r _ p => Some (IMov w p (PReg r))))
    else if op =? 139 then Some (FRm (fun _ w r _ p => Some (IMov w (PReg r) p)))
    else if op =? 141 then Some (FRm (fun _ w r _ p => match p with PReg _ | PHigh _ => None | _ => Some (ILea w r p) end))
    else if (144 <=? op) && (op <? 152) then Some (FOp (fun w b => IXchg w (PReg (op - 144 + b)) (PReg 0)))
    else if op =? 152 then Some (FOp (fun w _ => ISignAx w))
    else if op =? 153 then Some (FOp (fun w _ => ISignDx w))
    else if op =? 161 then Some (FI64 (fun w _ v => ILoadAbs w v))
    else if op =? 163 then Some (FI64 (fun w _ v => IStoreAbs w v))
    else if op =? 169 then Some (FI32 (fun w _ v => ITestI w (PReg 0) v))
    else if (184 <=? op) && (op <? 192) then
      (* The immediate has the operand's size: see [form_mov] *) None
    else if op =? 193 then Some (FRmI8 (fun _ w _ n p v => if is_shift n then Some (IShift w n p (Some (v mod w))) else None))
    else if op =? 195 then Some (FOp (fun _ _ => IRet))
    else if op =? 199 then Some (FRmI32 (fun _ w _ n p v => if n =? 0 then Some (IMovI w p v) else None))
    else if op =? 201 then Some (FOp (fun _ _ => ILeave))
    else if op =? 204 then Some (FOp (fun _ _ => IInt3))
    else if op =? 209 then Some (FRm (fun _ w _ n p => if is_shift n then Some (IShift w n p (Some 1)) else None))
    else if op =? 211 then Some (FRm (fun _ w _ n p => if is_shift n then Some (IShift w n p None) else None))
    else if op =? 232 then Some (FI32 (fun _ _ v => ICallRel v))
    else if op =? 233 then Some (FI32 (fun _ _ v => IJumpRel v))
    else if op =? 235 then Some (FI8 IJumpRel)
    else if op =? 247 then
      if f7 =? 0 then Some (FRmI32 (fun _ w _ _ p v => Some (ITestI w p v))) else Some (FRm grp3)
    else if op =? 252 then Some (FOp (fun _ _ => ICld))
    else if op =? 255 then Some (FRm grp5)
    else None
  end.
(* mov r, imm: the only instruction whose immediate can have eight bytes. *)
Definition form_mov (w op : Z) : form :=
  if w =? 64 then FI64 (fun w b v => IMovI w (PReg (op - 184 + b)) v) else FI32 (fun w b v => IMovI w (PReg (op - 184 + b)) v).
(* Two-byte opcodes, after 0F. *)
Definition form2 (pf : prefix) (op : Z) : option form :=
  match pf with
  | NoPrefix =>
    if op =? 46 then Some (FRm (fun _ _ r _ p => Some (IUcomiss r p)))
    else if op =? 87 then Some (FRm (fun _ _ r _ p => Some (IXorps r p)))
    else if (128 <=? op) && (op <? 144) then Some (FI32 (fun _ _ v => IJcc (op - 128) v))
    else if (144 <=? op) && (op <? 160) then Some (FRm (fun rex _ _ _ p => Some (ISet (op - 144) (byte_place rex p))))
    else if op =? 175 then Some (FRm (fun _ w r _ p => Some (IMul w r p)))
    else if op =? 182 then Some (FRm (fun rex w r _ p => Some (IMovzxb w r (byte_place rex p))))
    else None
  | P66 =>
    if op =? 110 then Some (FRm (fun _ w r _ p => Some (IMovdTo w r p)))
    else if op =? 126 then Some (FRm (fun _ w r _ p => Some (IMovdFrom w p r)))
    else None
  | PF3 =>
    if op =? 42 then Some (FRm (fun _ w r _ p => Some (ICvtsi2ss w r p)))
    else if op =? 44 then Some (FRm (fun _ w r _ p => Some (ICvttss2si w r p)))
    else if op =? 45 then Some (FRm (fun _ w r _ p => Some (ICvtss2si w r p)))
    else if (op =? 88) || (op =? 89) || (op =? 92) || (op =? 94) then Some (FRm (fun _ _ r _ p => Some (ISse op r p)))
    else None
  end.
(* Three-byte opcodes, after 0F 3A. *)
Definition form3 (pf : prefix) (op : Z) : option form :=
  match pf with P66 => if op =? 10 then Some (FRmI8 (fun _ _ r _ p v => Some (IRoundss r p v))) else None | _ => None end.

(* ---- Decoding ---- *)
Definition rex_of (rex : option Z) : Z := match rex with Some x => x | None => 0 end.
Definition width (x : Z) : Z := if rexW x =? 1 then 64 else 32.
Definition run_form (rex : option Z) (f : form) (l : list Z) : option (mi * list Z) :=
  let x := rex_of rex in
  let w := width x in
  let rm1 k := match get_modrm x l with Some ((r, n, p), t) => k r n p t | None => None end in
  let some i t := match i with Some i => Some (i, t) | None => None end in
  match f with
  | FRm g => rm1 (fun r n p t => some (g rex w r n p) t)
  | FRmI8 g => rm1 (fun r n p t => match get8 t with Some (v, t) => some (g rex w r n p v) t | None => None end)
  | FRmI32 g => rm1 (fun r n p t => match get32 t with Some (v, t) => some (g rex w r n p v) t | None => None end)
  | FOp g => Some (g w (8 * rexB x), l)
  | FI8 g => onto (get8 l) g
  | FI32 g => onto (get32 l) (g w (8 * rexB x))
  | FI64 g => onto (get64 l) (g w (8 * rexB x))
  end.
Definition decode_op (pf : prefix) (rex : option Z) (l : list Z) : option (mi * list Z) :=
  let go f t := match f with Some f => run_form rex f t | None => None end in
  match l with
  | [] => None
  | op :: t =>
    if op =? 15 then
      match t with
      | [] => None
      | op2 :: t2 =>
        if op2 =? 58 then match t2 with op3 :: t3 => go (form3 pf op3) t3 | [] => None end else go (form2 pf op2) t2
      end
    else if (184 <=? op) && (op <? 192) && match pf with NoPrefix => true | _ => false end
    then run_form rex (form_mov (width (rex_of rex)) op) t
    else go (form1 pf op (match t with m :: _ => m / 8 mod 8 | [] => 0 end)) t
  end.
Definition decode_rex (pf : prefix) (l : list Z) : option (mi * list Z) :=
  match l with
  | b :: t => if (64 <=? b) && (b <? 80) then decode_op pf (Some (b - 64)) t else decode_op pf None l
  | [] => None
  end.
(* The first instruction of [l] and what follows it. *)
Definition decode (l : list Z) : option (mi * list Z) :=
  match l with
  | b :: t => if b =? 102 then decode_rex P66 t else if b =? 243 then decode_rex PF3 t else decode_rex NoPrefix l
  | [] => None
  end.

(* All of [l], as a sequence of instructions. *)
Inductive decodes : list Z -> list mi -> Prop :=
| Dnil : decodes [] []
| Dcons : forall l i t is, decode l = Some (i, t) -> decodes t is -> decodes l (i :: is).

(* The register an instruction sets to a constant, and the 64 bits it then holds; an instruction of 32 bits clears the upper half. *)
Definition sets (i : mi) : option (Z * Z) :=
  match i with
  | IMovI 64 (PReg d) v => Some (d, v mod two64)
  | IMovI 32 (PReg d) v => Some (d, v mod two32)
  | _ => None
  end.
(* The address a memory operand names: registers [g], end of the instruction [e]. *)
Definition address (g : Z -> Z) (e : Z) (p : place) : option Z :=
  match p with
  | PMem b i d =>
    Some ((match b with Some b => g b | None => 0 end + match i with Some (i, s) => g i * s | None => 0 end + d) mod two64)
  | PRip d => Some ((e + d) mod two64)
  | _ => None
  end.
