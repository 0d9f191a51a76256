(* Model of jump labels and of the assembly buffer that patches them: compiler/label.h:44-161 and
   compiler/smx-assembly-buffer.h:36-244.  Everything the assembly buffer emits is a whole cell, so the
   byte buffer is a list of cells and pc() is four times its length.  Running out of memory (oom()) is
   not modelled.  Labels and data labels are named by numbers; a failed assertion is an outcome. *)
From Verif Require Import Base.

Inductive outcome (A : Type) : Type := Done (a : A) | AssertFails | NoFuel.
Arguments Done {A}. Arguments AssertFails {A}. Arguments NoFuel {A}.
Definition obind {A B} (x : outcome A) (f : A -> outcome B) : outcome B :=
  match x with Done a => f a | AssertFails => AssertFails | NoFuel => NoFuel end.
Notation "x <~ m ; f" := (obind m (fun x => f)) (at level 61, m at next level, right associativity).
Definition oassert (b : bool) : outcome unit := if b then Done tt else AssertFails.

Definition INT_MAX : Z := two31 - 1.
Definition kBound : Z := 1.                                                  (* compiler/label.h:47 *)

(* Label::ToOffset, compiler/label.h:70-72 (an arithmetic shift of the signed value);
   DataLabel::ToOffset, 126-128 (a logical shift). *)
Definition label_ToOffset (status : Z) : Z := u32 (Z.shiftr (wrap32 status) 1).
Definition data_ToOffset (status : Z) : Z := Z.shiftr status 1.
Definition is_bound (status : Z) : bool := negb (Z.land status kBound =? 0). (* 77-79, 133-135 *)
Definition is_used (status : Z) : bool := is_bound status || negb (Z.shiftr status 1 =? 0). (* 74-76, 130-132 *)

Record asm : Type := { code : list Z; lab : nat -> Z; dlab : nat -> Z }.
Definition fresh : asm := {| code := []; lab := fun _ => 0; dlab := fun _ => 0 |}.
Definition point (f : nat -> Z) (l : nat) (v : Z) : nat -> Z := fun k => if Nat.eqb k l then v else f k.
Definition pc (s : asm) : Z := 4 * Z.of_nat (length (code s)).               (* smx-assembly-buffer.h:226-228 *)

(* write<cell_t>, utils/byte-buffer.h. *)
Definition write (v : Z) (s : asm) : asm := {| code := code s ++ [wrap32 v]; lab := lab s; dlab := dlab s |}.
Fixpoint write_all (vs : list Z) (s : asm) : asm :=
  match vs with [] => s | v :: vs' => write_all vs' (write v s) end.
Definition set_lab (l : nat) (v : Z) (s : asm) : asm := {| code := code s; lab := point (lab s) l v; dlab := dlab s |}.
Definition set_dlab (d : nat) (v : Z) (s : asm) : asm := {| code := code s; lab := lab s; dlab := point (dlab s) d v |}.

(* Label::addPending, compiler/label.h:88-93; returns the previous status. *)
Definition addPending (l : nat) (at_pc : Z) (s : asm) : outcome (Z * asm) :=
  _ <~ oassert (at_pc <=? INT_MAX / 2);
  Done (lab s l, set_lab l (u32 (Z.shiftl at_pc 1)) s).
(* Label::bind, compiler/label.h:94-98. *)
Definition label_bind (l : nat) (offset : Z) (s : asm) : outcome asm :=
  _ <~ oassert (negb (is_bound (lab s l)));
  let st := Z.lor (u32 (Z.shiftl offset 1)) kBound in
  _ <~ oassert (label_ToOffset st =? u32 offset);
  Done (set_lab l st s).
(* DataLabel::use and bind, compiler/label.h:144-152. *)
Definition data_use (d : nat) (at_pc : Z) (s : asm) : outcome asm :=
  _ <~ oassert (negb (is_used (dlab s d)));
  _ <~ oassert (at_pc <=? INT_MAX / 2);
  Done (set_dlab d (u32 (Z.shiftl at_pc 1)) s).
Definition data_bind (d : nat) (s : asm) : outcome asm :=
  _ <~ oassert (is_used (dlab s d) && negb (is_bound (dlab s d)));
  Done (set_dlab d (Z.lor (dlab s d) kBound) s).

(* encodeAbsoluteAddress, compiler/smx-assembly-buffer.h:231-237. *)
Definition encodeAbsoluteAddress (l : nat) (s : asm) : outcome asm :=
  if is_bound (lab s l) then Done (write (label_ToOffset (lab s l)) s)
  else r <~ addPending l (pc s + 4) s;
       let '(prev, s) := r in Done (write prev s).

(* The cell at byte offset [offset] - 4, and storing to it. *)
Fixpoint set_cell (c : list Z) (i : nat) (v : Z) : list Z :=
  match c, i with
  | [], _ => []
  | _ :: c', O => v :: c'
  | x :: c', S j => x :: set_cell c' j v
  end.
Definition cell_index (offset : Z) : nat := Z.to_nat (offset / 4 - 1).

(* The loop of bind_to, compiler/smx-assembly-buffer.h:196-204. *)
Fixpoint patch (fuel : nat) (status value : Z) (c : list Z) : outcome (list Z) :=
  if status =? 0 then Done c
  else match fuel with
       | O => NoFuel
       | S n =>
           let offset := label_ToOffset status in
           _ <~ oassert ((4 <=? offset) && (offset <=? 4 * Z.of_nat (length c)));
           let next := u32 (nth (cell_index offset) c 0) in
           patch n next value (set_cell c (cell_index offset) (wrap32 value))
       end.
(* bind_to on a label, compiler/smx-assembly-buffer.h:186-207. *)
Definition bind_to (l : nat) (value : Z) (s : asm) : outcome asm :=
  _ <~ oassert (0 <=? value);
  _ <~ oassert (negb (is_bound (lab s l)));
  c <~ patch (S (length (code s))) (lab s l) value (code s);
  label_bind l value {| code := c; lab := lab s; dlab := dlab s |}.
(* bind, 182-184 *)
Definition bind (l : nat) (s : asm) : outcome asm := bind_to l (wrap32 (pc s)) s.

Definition marker : Z := wrap32 0xb0b0b0b0.
(* bind_to on a data label, compiler/smx-assembly-buffer.h:208-224. *)
Definition data_bind_to (d : nat) (value : Z) (s : asm) : outcome asm :=
  _ <~ oassert (negb (is_bound (dlab s d)));           (* status(), compiler/label.h:140-143 *)
  let offset := data_ToOffset (dlab s d) in
  _ <~ oassert ((4 <=? offset) && (offset <=? pc s));
  _ <~ oassert (nth (cell_index offset) (code s) 0 =? marker);
  data_bind d {| code := set_cell (code s) (cell_index offset) (wrap32 value); lab := lab s; dlab := dlab s |}.

(* The emitting interface, compiler/smx-assembly-buffer.h:42-83, 166-184. *)
Inductive aop : Type :=
| Emit (cells : list Z)                         (* emit with plain operands: 42-74 *)
| EmitLabel (op : Z) (l : nat)                  (* 75-78 *)
| EmitData (op : Z) (d : nat)                   (* 79-83 *)
| CaseTable (op ncases : Z) (l : nat)           (* casetbl, 166-170 *)
| CaseEntry (value : Z) (l : nat)               (* casetbl_entry, 171-174 *)
| SysReqN (op : Z) (l : nat) (nparams : Z)      (* sysreq_n, 176-180 *)
| Bind (l : nat)
| BindTo (l : nat) (value : Z)
| BindData (d : nat) (value : Z).

Definition aexec (o : aop) (s : asm) : outcome asm :=
  match o with
  | Emit cs => Done (write_all cs s)
  | EmitLabel op l => encodeAbsoluteAddress l (write op s)
  | EmitData op d => let s := write 0xb0b0b0b0 (write op s) in data_use d (pc s) s
  | CaseTable op n l => encodeAbsoluteAddress l (write n (write op s))
  | CaseEntry v l => encodeAbsoluteAddress l (write v s)
  | SysReqN op l n => s <~ encodeAbsoluteAddress l (write op s); Done (write n s)
  | Bind l => bind l s
  | BindTo l v => bind_to l v s
  | BindData d v => data_bind_to d v s
  end.
Fixpoint arun (h : list aop) (s : asm) : outcome asm :=
  match h with [] => Done s | o :: h' => s <~ aexec o s; arun h' s end.
