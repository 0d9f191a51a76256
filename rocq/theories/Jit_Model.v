(* Model of how the compiler lays out a method: blocks in reverse postorder, each ending in jumps to the labels of its
   successors (vm/jit.cpp, vm/jit.h, vm/x64/jit_x64.cpp); how a compiled method is entered and left.

   A block's label is its name in the graph ([Cfg_Model]).  The machine runs the code of one instruction of the method at a
   time, in the block being compiled; where that code ends without a jump it runs into whatever was emitted next. *)
From Verif Require Import Base Rt_Model Array_Model Interp_Model Cfg_Model Dom_Model X64_Model.

(* Instructions that end a block.  A 32-bit jump is recorded in backward_jumps_: the watchdog redirects it when the script
   has run too long (vm/watchdog_timer.cpp, vm/code-allocator.cpp), which it cannot do with other jumps. *)
Inductive ti :=
| TC (i : xi)
| TJcc (c : ccode) (t : Z)
| TJmp (t : Z)
| TJcc32 (c : ccode) (t : Z)
| TJmp32 (t : Z)
| TTable (l : list (option Z)).        (* lea rsi, table; movsxd rcx, rcx; mov rdi, [rsi + rcx * 8]; jmp rdi; the table [slots] *)

(* [recorded]: the jump taken is one the watchdog can redirect. *)
Inductive tres :=
| TTo (t : Z) (recorded : bool) (x : xst)
| TOn (x : xst)                           (* past the last of them *)
| TStart (x : xst)                        (* to the start of the method's code, where its prologue is *)
| TErr (e : Z) (x : xst)
| TUB (u : ub).

(* vm/x64/assembler-x64.h:1225-1263 InvertConditionCode. *)
Definition invert (c : ccode) : option ccode :=
  match c with
  | below => Some not_below | not_below => Some below | equal => Some not_equal | not_equal => Some equal
  | not_above => Some above | above => Some not_above | less => Some not_less | not_less => Some less
  | not_greater => Some greater | greater => Some not_greater
  | parity => None
  end.

(* ---- The table of block addresses (vm/x64/assembler-x64.h) ----
   A slot is filled in when the block it is for is bound: [Some t] the address of block [t]; [None] the 0 stored until then,
   which linking takes for the start of the method's code (assembler-x64.cpp:33-40).  A block's address label remembers one
   slot (vm/label.h:121-180 CodeLabelBase).  Only the slots of switches are listed; those of calls lie among them.  That the label has not been used before is an assertion (label.h:161-162), not
   compiled in. *)
Record atab := mkAtab { a_slots : list (option Z); a_bound : list Z; a_use : Z -> option nat }.
Inductive aop := AEmit (t : Z) | ABind (b : Z).
Fixpoint fill (k : nat) (v : option Z) (l : list (option Z)) : list (option Z) :=
  match l, k with
  | [], _ => []
  | _ :: l', O => v :: l'
  | x :: l', S k' => x :: fill k' v l'
  end.
(* assembler-x64.h:496-504 emit_absolute_address; 420-450 bind. *)
Definition aperform (a : atab) (o : aop) : atab :=
  match o with
  | AEmit t =>
    if existsb (Z.eqb t) (a_bound a) then mkAtab (a_slots a ++ [Some t]) (a_bound a) (a_use a)
    else mkAtab (a_slots a ++ [None]) (a_bound a) (fun x => if x =? t then Some (length (a_slots a)) else a_use a x)
  | ABind b =>
    mkAtab (match a_use a b with Some k => fill k (Some b) (a_slots a) | None => a_slots a end) (b :: a_bound a) (a_use a)
  end.
Definition perform (l : list aop) : atab := fold_left aperform l (mkAtab [] [] (fun _ => None)).

Section Machine.
Variables (base : Z) (env : rt) (fp : fpu) (natives : Z -> option native) (junk : gpr -> Z).

Fixpoint trun (code : list ti) (x : xst) : tres :=
  match code with
  | [] => TOn x
  | TC i :: rest =>
    match xexec base env fp natives junk i x with XOk x' => trun rest x' | XErr e x' => TErr e x' | XUB u => TUB u end
  | TJcc c t :: rest =>
    match xf x with Some f => if cond c f then TTo t false x else trun rest x | None => TUB UBAssert end
  | TJcc32 c t :: rest =>
    match xf x with Some f => if cond c f then TTo t true x else trun rest x | None => TUB UBAssert end
  | TJmp t :: _ => TTo t false x
  | TJmp32 t :: _ => TTo t true x
  | TTable l :: _ =>
    let k := wrap32 (xr x RCX) in
    if (0 <=? k) && (k <? Z.of_nat (length l))
    then let x' := setr RDI (junk RDI) (setr RSI (junk RSI) (setr RCX (u64 k) x)) in
         match nth (Z.to_nat k) l None with Some t => TTo t false x' | None => TStart x' end
    else TUB UBMem
  end.

(* The order the blocks are emitted in, the block being compiled, and its successors_. *)
Section Block.
Variables (rpo : list Z) (b : Z) (succs : list Z).

(* vm/jit.h:106-111; ids are positions in the order. *)
Definition isNextBlock (t : Z) : bool := id_of rpo t =? id_of rpo b + 1.
Definition isBackedge (t : Z) : bool := id_of rpo t <=? id_of rpo b.
(* What follows the block in memory. *)
Fixpoint following (l : list Z) : option Z :=
  match l with
  | x :: ((y :: _) as rest) => if x =? b then Some y else following rest
  | _ => None
  end.

(* vm/jit.cpp:332-351. *)
Definition emitJUMP : option (list ti) :=
  match succs with
  | [t] => Some (if isNextBlock t then [] else if isBackedge t then [ TJmp32 t ] else [ TJmp t ])
  | _ => None
  end.

(* vm/x64/jit_x64.cpp:459-504.  The assertion that the fall-through is no back edge is not compiled in. *)
Definition emitJcmp (c : cmpop) : option (list ti) :=
  let '(test, cc) :=
    match c with
    | Zero => (Test L RAX RAX, equal)
    | NotZero => (Test L RAX RAX, not_equal)
    | _ => (Cmp L RAX RDX, OpToCondition c)
    end in
  match succs with
  | [fall; target] =>
    let rest := if isNextBlock fall then [] else [ TJmp fall ] in
    if isBackedge target then Some (TC test :: TJcc32 cc target :: rest)
    else if isNextBlock target then
      match invert cc with Some nc => Some [ TC test; TJcc nc fall ] | None => None end
    else Some (TC test :: TJcc cc target :: rest)
  | _ => None
  end.

(* The values of the case table in sequence from the first (jit_x64.cpp:1053-1063). *)
Fixpoint sequential (last : Z) (vs : list Z) : bool :=
  match vs with
  | [] => true
  | v :: rest => (v =? wrap32 (last + 1)) && sequential (wrap32 (last + 1)) rest
  end.
Fixpoint if_chain (vs ts : list Z) : list ti :=
  match vs, ts with
  | v :: vs', t :: ts' => TC (CmpI L RAX v) :: TJcc equal t :: if_chain vs' ts'
  | _, _ => []
  end.

(* Whether the cases are looked up in a table (jit_x64.cpp:1033-1066). *)
Definition uses_table (vs : list Z) : bool :=
  match vs with
  | [] | [_] => false
  | v :: vs' => negb (v =? - two31) && sequential v vs'
  end.

(* vm/x64/jit_x64.cpp:1026-1107; [vs] the values of the cases, [tab] what the linked table holds if there is one. *)
Definition emitSWITCH (vs : list Z) (tab : list (option Z)) : option (list ti) :=
  match succs with
  | dflt :: ts =>
    let to_default := if isNextBlock dflt then [] else [ TJmp dflt ] in
    if negb (Z.of_nat (length ts) =? Z.of_nat (length vs)) then None
    else match vs, ts with
    | [], _ => Some to_default
    | [v], t :: _ => Some (TC (CmpI L RAX v) :: TJcc equal t :: to_default)
    | v :: _, _ =>
      if uses_table vs then
        Some ([ TC (if v =? 0 then MovRR L RCX RAX else Lea RCX (At RAX (- v)));
                TC (CmpI L RCX (Z.abs (wrap32 (v - last vs v)))); TJcc above dflt; TTable tab ])
      else Some (if_chain vs ts ++ [ TJmp dflt ])
    end
  | [] => None
  end.
End Block.

(* ---- One method ---- *)
Section Method.
Variables (code : list Z) (mi : meth) (g : graph) (rpo : list Z).

(* A place in the compiled method: the block, the instruction about to be executed (or, at the end of the block, the cell
   after its last), and the machine. *)
Record jat := mkJat { j_block : Z; j_cell : Z; j_x : xst }.
Inductive jres :=
| JAt (recorded : bool) (j : jat)
| JErr (e : Z) (x : xst)
| JUB (u : ub)
| JOut (i : instr) (j : jat)           (* a call or a return: below *)
| JStart (x : xst).                    (* at the start of the method's code: the prologue runs again *)

Definition block_end_at (b : Z) : option Z :=
  match find (fun e => fst e =? b) (g_ends g) with Some (_, e) => Some e | None => None end.

(* After a jump the machine is at the first instruction of the block; a block emitted last runs into other code. *)
Definition entered (b : Z) (r : tres) : jres :=
  match r with
  | TTo t rec x => JAt rec (mkJat t t x)
  | TOn x => match following b rpo with Some t => JAt false (mkJat t t x) | None => JUB UBMem end
  | TStart x => JStart x
  | TErr e x => JErr e x
  | TUB u => JUB u
  end.
Definition run_end (b : Z) (c : option (list ti)) (x : xst) : jres :=
  match c with Some c => entered b (trun c x) | None => JUB UBAssert end.

Fixpoint case_values (n : nat) (pos : Z) : list Z :=
  match n with O => [] | S n' => cell_at code pos :: case_values n' (pos + 2) end.

(* The cell of the switch a block ends in, if it does: vm/jit.cpp:104-121 reads the block's instructions from the first (after
   PROC, vm/pcode-reader.h:62-65) until its end. *)
Fixpoint find_switch (fuel : nat) (c e : Z) : option Z :=
  match fuel with
  | O => None
  | S f =>
    if e <=? c then None
    else if cell_at code c =? OP_SWITCH then Some c
    else find_switch f (c + insn_size code c) e
  end.
(* The blocks of the table emitted with the block, if one is. *)
Definition block_table (b : Z) : option (list Z) :=
  match block_end_at b with
  | None => None
  | Some e =>
    match find_switch (S (length code)) (if cell_at code b =? OP_PROC then b + 1 else b) e with
    | None => None
    | Some c =>
      let t := cell_at code (c + 1) / 4 in
      if uses_table (case_values (Z.to_nat (cell_at code (t + 1))) (t + 3)) then Some (tl (g_succ g b)) else None
    end
  end.
(* What compiling the method does to the address table, in order: each block is bound when reached (jit.cpp:104-108), then a
   table emitted with its last case first (jit_x64.cpp:1086-1095). *)
Definition table_ops (b : Z) : list aop :=
  ABind b :: match block_table b with Some ts => map AEmit (rev ts) | None => [] end.
Definition linked : list (option Z) := a_slots (perform (flat_map table_ops rpo)).
(* The slots before [b]'s. *)
Fixpoint slots_before (b : Z) (l : list Z) : nat :=
  match l with
  | [] => O
  | x :: rest => if x =? b then O else (match block_table x with Some ts => length ts | None => O end + slots_before b rest)%nat
  end.
(* The table of the block as the code reads it: entries lie in memory in the reverse of the order they were emitted in
   (vm/x64/assembler-x64.cpp:43-47), so the last emitted, where the table's label is bound (assembler-x64.h:409-419), comes
   first. *)
Definition table_of (b : Z) : list (option Z) :=
  match block_table b with
  | Some ts => rev (firstn (length ts) (skipn (slots_before b rpo) linked))
  | None => []
  end.

(* vm/jit.cpp:104-147. *)
Definition jstep (j : jat) : jres :=
  let b := j_block j in
  let c := j_cell j in
  match block_end_at b with
  | None => JUB UBAssert
  | Some e =>
    if c =? e then run_end b (emitJUMP rpo b (g_succ g b)) (j_x j)           (* BlockEnd::Jump *)
    else match decode code c with
    | None => JUB UBAssert
    | Some (JUMP _) => run_end b (emitJUMP rpo b (g_succ g b)) (j_x j)
    | Some (JCMP cm _) => run_end b (emitJcmp rpo b (g_succ g b) cm) (j_x j)
    | Some (SWITCH tbl) =>
        let t := tbl / 4 in
        run_end b (emitSWITCH rpo b (g_succ g b) (case_values (Z.to_nat (cell_at code (t + 1))) (t + 3)) (table_of b)) (j_x j)
    | Some (CALL o) => JOut (CALL o) j
    | Some RETN => JOut RETN j
    | Some i =>
      match emit env natives mi i with
      | None => JUB UBAssert              (* the method is not compiled *)
      | Some c1 =>
        match xrun base env fp natives junk c1 0 (j_x j) with
        | XOk x => JAt false (mkJat b (c + insn_size code c) x)
        | XErr e x => JErr e x
        | XUB u => JUB u
        end
      end
    end
  end.
End Method.
End Machine.

(* ---- Calls ---- *)

(* jit_x64.cpp:41-77; the frames on the native stack are not modelled.  [max_stack]: what the verifier found the method
   needs. *)
Definition emitPrologue (mi : meth) (max_stack : Z) : list xi :=
  [ AluI Q ASub R14 8;
    Load L RCX (Ctx CFrm); Store L (At R14 4) RCX;
    Load L RCX (Ctx CHp); Store L (At R14 0) RCX;
    MovRR Q RCX R14; MovRR Q RBX R14; Alu Q ASub RCX R15; Store L (Ctx CFrm) RCX ] ++
  (if max_stack =? 0 then [] else
   [ Load L RAX (Ctx CHp); Lea RAX (Idx R15 RAX 1 STACK_MARGIN); Lea RCX (At R14 (- max_stack)); Cmp Q RCX RAX;
     X64_Model.JErr below (err_code STACKLOW) ]) ++
  (if StackSizeForLocalSlots mi =? 0 then [] else [ AluI Q AAdd R14 (StackSizeForLocalSlots mi) ]).

(* jit_x64.cpp:376-397; [scopes]: block_->heap_scope_depth(). *)
Fixpoint leave_scopes (scopes : nat) : list xi :=
  match scopes with
  | O => []
  | S n => [ Load L RCX (Ctx CScope); Load L RDX (Idx R15 RCX 1 0); Store L (Ctx CHp) RCX; Store L (Ctx CScope) RDX ] ++ leave_scopes n
  end.
Definition emitRETN (scopes : nat) : list xi :=
  leave_scopes scopes ++
  [ MovRR Q R14 RBX; Load L RBX (At R14 4); Load L RCX (At R14 0); Store L (Ctx CHp) RCX; AluI Q AAdd R14 8;
    Store L (Ctx CFrm) RBX; Alu Q AAdd RBX R15; Load L RCX (At R14 0); Lea R14 (Idx R14 RCX 4 4) ].
