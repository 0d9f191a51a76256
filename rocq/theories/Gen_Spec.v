(* What an integer expression means: values, assignments and errors, operands from left to right. C28. *)
From Verif Require Import Base Rt_Model Rt_Spec Interp_Model Fold_Model Fold_Spec Gen_Model.
From Verif Require Label_Model Label_Spec.

(* A cell of the program's data: element [i] of object [o] (a scalar is an object with one element). *)
Notation loc := (nat * Z)%type.
Definition loc_eqb (x y : loc) : bool := Nat.eqb (fst x) (fst y) && (snd x =? snd y).
Notation store := (loc -> Z).
Definition update (st : store) (x : loc) (v : Z) : store := fun y => if loc_eqb x y then v else st y.

(* What the names stand for: the cell a variable (or the target of a reference) is, the object an array is,
   and how many cells each object has. *)
Record scope := mkScope { vloc : var -> option loc; aobj : aref -> option nat; olen : nat -> Z }.

Inductive ev (A : Type) := Val (v : A) (st : store) | Err (e : err) (st : store) | Unspecified.
Arguments Val {A}. Arguments Err {A}. Arguments Unspecified {A}.
Definition andthen {A B} (r : ev A) (k : A -> store -> ev B) : ev B :=
  match r with Val v st => k v st | Err e st => Err e st | Unspecified => Unspecified end.
Notation "'LET' x @ st := m 'IN' k" := (andthen m (fun x st => k)) (at level 200, x name, st name, m at level 100, k at level 200).

Definition operate (op : binop) (x y : Z) (st : store) : ev Z :=
  match means op x y with OVal v => Val v st | OErr e => Err e st | OUndef => Unspecified end.

Section Eval.
Variable sc : scope.

(* Element [i] of an array, object [o], declared with [size] elements (0: not declared).  Outside the declared
   size, or negative, is an error; past the end of an array of undeclared size is not specified. *)
Definition element (o : nat) (size i : Z) (st : store) : ev loc :=
  if (i <? 0) || ((0 <? size) && (size <=? i)) then Err ARRAY_BOUNDS st
  else if i <? olen sc o then Val (o, i) st else Unspecified.

Fixpoint eval (e : expr) (st : store) {struct e} : ev Z :=
  match e with
  | Num v => Val v st
  | Rv l => LET x @ st := evloc l st IN Val (st x) st
  | Un op a => LET x @ st := eval a st IN Val (umeans op x) st
  | Bin op a b => LET x @ st := eval a st IN LET y @ st := eval b st IN operate op x y st
  | Log LOr a b =>
      LET x @ st := eval a st IN
      if x =? 0 then (LET y @ st := eval b st IN Val (truth (negb (y =? 0))) st) else Val 1 st
  | Log LAnd a b =>
      LET x @ st := eval a st IN
      if x =? 0 then Val 0 st else (LET y @ st := eval b st IN Val (truth (negb (y =? 0))) st)
  | Chain a op b rest =>
      LET x @ st := eval a st IN LET y @ st := eval b st IN
      LET v @ st := operate op x y st IN evchain v y rest st
  | Tern c a b => LET x @ st := eval c st IN if x =? 0 then eval b st else eval a st
  | Comma a b => LET x @ st := eval a st IN eval b st
  | Asg l a => LET x @ st := evloc l st IN LET v @ st := eval a st IN Val v (update st x v)
  | AsgOp l op a =>
      LET x @ st := evloc l st IN
      let old := st x in
      LET y @ st := eval a st IN LET v @ st := operate op old y st IN Val v (update st x v)
  | Inc l up pre =>
      LET x @ st := evloc l st IN
      let old := st x in
      let new := wrap32 (if up then old + 1 else old - 1) in
      Val (if pre then old else new) (update st x new)
  end
with evloc (l : lval) (st : store) {struct l} : ev loc :=
  match l with
  | LVar x => match vloc sc x with Some c => Val c st | None => Unspecified end
  | LCell r size i =>
      match aobj sc r with
      | Some o => LET v @ st := eval i st IN element o size v st
      | None => Unspecified
      end
  end
(* [acc]: the value of the links so far; [x]: the last operand.  Every operand is evaluated, once. *)
with evchain (acc x : Z) (c : chain) (st : store) {struct c} : ev Z :=
  match c with
  | CEnd => Val acc st
  | CMore op e rest =>
      LET y @ st := eval e st IN
      LET v @ st := operate op x y st IN evchain (truth (negb (acc =? 0) && negb (v =? 0))) y rest st
  end.
End Eval.

(* How deep an expression's temporaries go, in cells. *)
Fixpoint depth (e : expr) : Z :=
  match e with
  | Num _ => 0
  | Rv l => ldepth l
  | Un _ a => depth a
  | Bin _ a b => Z.max (depth a) (1 + depth b)
  | Log _ a b => Z.max (depth a) (depth b)
  | Chain a _ b rest => Z.max (depth a) (Z.max (1 + depth b) (cdepth rest))
  | Tern c a b => Z.max (depth c) (Z.max (depth a) (depth b))
  | Comma a b => Z.max (depth a) (depth b)
  | Asg l a => Z.max (ldepth l) (1 + depth a)
  | AsgOp l _ a => Z.max (ldepth l) (2 + depth a)
  | Inc l _ _ => Z.max (ldepth l) 2
  end
with ldepth (l : lval) : Z := match l with LVar _ => 0 | LCell _ _ i => 1 + depth i end
with cdepth (c : chain) : Z := match c with CEnd => 0 | CMore _ e rest => Z.max (2 + depth e) (cdepth rest) end.

(* ---- Code in memory ---- *)

(* The cells of [ops] are in [code] from cell [k] on, a reference to label [l] being [wh l], and the labels
   placed among them are where [wh] says. *)
Fixpoint laid (code : list Z) (wh : nat -> Z) (k : Z) (ops : list aop) : Prop :=
  match ops with
  | [] => True
  | Label_Model.Emit cs :: rest =>
      (forall i, (i < length cs)%nat -> cell_at code (k + Z.of_nat i) = wrap32 (nth i cs 0)) /\
      laid code wh (k + Z.of_nat (length cs)) rest
  | Label_Model.EmitLabel op l :: rest =>
      cell_at code k = wrap32 op /\ cell_at code (k + 1) = wrap32 (wh l) /\ laid code wh (k + 2) rest
  | Label_Model.CaseTable op n l :: rest =>
      cell_at code k = wrap32 op /\ cell_at code (k + 1) = wrap32 n /\ cell_at code (k + 2) = wrap32 (wh l) /\
      laid code wh (k + 3) rest
  | Label_Model.CaseEntry v l :: rest =>
      cell_at code k = wrap32 v /\ cell_at code (k + 1) = wrap32 (wh l) /\ laid code wh (k + 2) rest
  | Label_Model.SysReqN op l n :: rest =>
      cell_at code k = wrap32 op /\ cell_at code (k + 1) = wrap32 (wh l) /\ cell_at code (k + 2) = wrap32 n /\
      laid code wh (k + 3) rest
  | Label_Model.EmitData op _ :: rest => cell_at code k = wrap32 op /\ laid code wh (k + 2) rest
  | Label_Model.Bind l :: rest => wh l = 4 * k /\ laid code wh k rest
  | Label_Model.BindTo l v :: rest => wh l = v /\ laid code wh k rest
  | Label_Model.BindData _ _ :: rest => laid code wh k rest
  end.
Fixpoint size (ops : list aop) : Z :=
  match ops with
  | [] => 0
  | Label_Model.Emit cs :: rest => Z.of_nat (length cs) + size rest
  | Label_Model.EmitLabel _ _ :: rest => 2 + size rest
  | Label_Model.CaseTable _ _ _ :: rest => 3 + size rest
  | Label_Model.CaseEntry _ _ :: rest => 2 + size rest
  | Label_Model.SysReqN _ _ _ :: rest => 3 + size rest
  | Label_Model.EmitData _ _ :: rest => 2 + size rest
  | _ :: rest => size rest
  end.

(* ---- The machine's view of the data ---- *)

Record machine := mkMachine {
  m_rt : rt;                 (* limits, frame and heap top; its memory and stack top are where evaluation starts *)
  m_meth : meth;
  m_callers : list act;
  m_prog : prog;
  m_fe : fenv;
  m_tmo : config -> bool
}.
Section Machine.
Variable M : machine.
Variable sc : scope.
Variable obase : nat -> Z.    (* address of each object *)

Definition at_ (m : Z -> Z) (q k p a : Z) : config :=
  mkConfig (set_sp q (set_mem m (m_rt M))) (mkAct (m_meth M) k p a) (m_callers M).
Definition adr (x : loc) : Z := obase (fst x) + 4 * snd x.
Definition live (x : loc) : Prop := 0 <= snd x < olen sc (fst x).
Definition slot_adr (s : Z) : Z := wrap32 (frm (m_rt M) + StackOffset (m_meth M) s).
Definition slot_ok (s : Z) : Prop := typed (m_meth M) = true -> s < Z.of_nat (length (local_offsets (m_meth M))).
(* Slots that hold an address, and the address. *)
Definition pointer (s a : Z) : Prop :=
  (exists x, vloc sc (VRef s) = Some x /\ a = adr x) \/ (exists o, aobj sc (ALocal s) = Some o /\ a = obase o).

(* A block of [n] bytes at [a] that a script can reach and that is not in the unused gap. *)
Definition reachable (a n : Z) : Prop :=
  0 <= a /\ a + n <= stp (m_rt M) /\ (a + n <= hp (m_rt M) \/ sp (m_rt M) <= a).
Definition apart (a n b l : Z) : Prop := a + n <= b \/ b + l <= a.

Record placed_data (wh : nat -> Z) (glab : nat -> nat) (ga : nat -> Z) : Prop := {
  pd_layout : layout (m_rt M);
  pd_inside : pointers_inside (m_rt M);
  pd_hp : 0 <= hp (m_rt M);
  pd_sp : hp (m_rt M) <= sp (m_rt M) <= stp (m_rt M);
  pd_objs : forall o, 0 < olen sc o -> reachable (obase o) (4 * olen sc o);
  pd_apart : forall o o', o <> o' -> 0 < olen sc o -> 0 < olen sc o' ->
    apart (obase o) (4 * olen sc o) (obase o') (4 * olen sc o');
  pd_local : forall s x, vloc sc (VLocal s) = Some x -> slot_ok s /\ is_i32 s /\ slot_adr s = adr x /\ live x;
  pd_global : forall g x, vloc sc (VGlobal g) = Some x -> wh (glab g) = adr x /\ ga g = adr x /\ live x;
  pd_ref : forall s x, vloc sc (VRef s) = Some x -> live x;
  pd_array : forall g o, aobj sc (AGlobal g) = Some o -> wh (glab g) = obase o /\ 0 < olen sc o;
  pd_array_slot : forall s o, aobj sc (ALocal s) = Some o -> 0 < olen sc o;
  pd_pointer : forall s a, pointer s a -> slot_ok s /\ is_i32 s /\ reachable (slot_adr s) 4 /\
    forall o, 0 < olen sc o -> apart (slot_adr s) 4 (obase o) (4 * olen sc o)
}.

(* Memory [m] holds the store [st] and the addresses the code relies on. *)
Definition holds (st : store) (m : Z -> Z) : Prop :=
  (forall x, live x -> load32 m (adr x) = st x) /\ (forall s a, pointer s a -> load32 m (slot_adr s) = a).

(* Only the program's data and the unused gap below [q] may differ. *)
Definition only_data (q : Z) (m m' : Z -> Z) : Prop :=
  forall x, ~ (hp (m_rt M) <= x < q) -> (forall c, live c -> apart x 1 (adr c) 4) -> m' x = m x.

Definition vstep := step false (m_fe M) (m_prog M) (m_tmo M).
Definition vrun := run false (m_fe M) (m_prog M) (m_tmo M).
(* [c] gets to [c'] in a number of steps. *)
Definition gets (c c' : config) : Prop := exists n, vrun n c = inr c'.
(* [c] stops with error [e], the memory then holding [st]. *)
Definition stops (c : config) (e : err) (st : store) : Prop :=
  exists n r, vrun n c = inl (Stop e r) /\ holds st (mem r).

(* From [c] with stack top [q]: the value ends in PRI, the store is in memory, the stack is back. *)
Definition yields (m : Z -> Z) (c : config) (q k' : Z) (r : ev Z) : Prop :=
  match r with
  | Val v st' => exists m' a', gets c (at_ m' q k' v a') /\ holds st' m' /\ only_data q m m' /\ is_i32 v
  | Err e st' => stops c e st'
  | Unspecified => True
  end.
(* The same for a test: control goes to [kt] if the value is true (not zero), to [kf] if it is not. *)
Definition branches (m : Z -> Z) (c : config) (q kt kf : Z) (r : ev Z) : Prop :=
  match r with
  | Val v st' => exists m' p' a', gets c (at_ m' q (if v =? 0 then kf else kt) p' a') /\ holds st' m' /\ only_data q m m'
  | Err e st' => stops c e st'
  | Unspecified => True
  end.
End Machine.

(* ---- Code as the compiler makes it ---- *)

(* Where label [l] is in the end: the address of a place in the code, or of a global. *)
Definition resolve (h : list aop) (l : nat) : Z := match Label_Spec.placed 0 h l with Some a => a | None => 0 end.
(* Every label referred to is placed (the compiler checks this: label.h:60). *)
Definition closed (h : list aop) : Prop :=
  forall l, In (Label_Spec.Ref l) (Label_Spec.items h) -> Label_Spec.placed 0 h l <> None.
(* Emitting [h] produces the code of machine [M]. *)
Definition built (h : list aop) (M : machine) : Prop :=
  Label_Spec.well_used h /\ closed h /\
  exists s, Label_Model.arun h Label_Model.fresh = Label_Model.Done s /\ p_code (m_prog M) = Label_Model.code s.
(* How many cells the emitted operations fill. *)
Definition cells_of (h : list aop) : Z := Z.of_nat (length (Label_Spec.items h)).
