(* What following a method's control flow means for compiled code.  C46, C25. *)
From Verif Require Import Base Rtti_Model Rt_Model Array_Model Interp_Model Rt_Spec Mem_Spec Cfg_Model Cfg_Spec Dom_Model Dom_Spec X64_Model X64_Spec Jit_Model.

(* [K] says for each instruction which of PRI and ALT the machine's registers hold when it is reached; every way through the
   method keeps to it, and every instruction only uses registers it says are held. *)
Definition le2 (k k' : bool * bool) : Prop := (fst k = true -> fst k' = true) /\ (snd k = true -> snd k' = true).
Definition keeps (code : list Z) (K : Z -> bool * bool) (pc : Z) : Prop :=
  let next := pc + insn_size code pc in
  match decode code pc with
  | None => True
  | Some RETN => fst (K pc) = true
  | Some (CALL _) => le2 (K next) (true, false)
  | Some (JUMP o) => le2 (K (o / 4)) (K pc)
  | Some (JCMP c o) =>
      fst (K pc) = true /\ match c with Zero | NotZero => True | _ => snd (K pc) = true end /\
      le2 (K next) (K pc) /\ le2 (K (o / 4)) (K pc)
  | Some (SWITCH t) => fst (K pc) = true /\ forall o, In o (table_offsets code (t / 4)) -> le2 (K (o / 4)) (K pc)
  | Some i => exists k, flow i (K pc) = Some k /\ le2 (K next) k
  end.
Definition registers_ok (code : list Z) (m : Z) (K : Z -> bool * bool) : Prop := forall pc, reaches code m pc -> keeps code K pc.

(* The compiler has code for every instruction of the method. *)
Definition plain (i : instr) : Prop := match i with RETN | CALL _ | JUMP _ | JCMP _ _ | SWITCH _ => False | _ => True end.
Definition supported (env : rt) (natives : Z -> option native) (code : list Z) (mi : meth) (m : Z) : Prop :=
  forall pc i, reaches code m pc -> decode code pc = Some i -> plain i -> emit env natives mi i <> None.

(* The switch at [pc] has two or more cases whose values are in sequence, and its [i]th case leads to [t].  [unshared]: no two
   such cases of the method lead to the same place. *)
Definition sequence_case (code : list Z) (pc : Z) (i : Z) (t : Z) : Prop :=
  exists o, decode code pc = Some (SWITCH o) /\
    let table := o / 4 in
    let count := cell_at code (table + 1) in
    let value k := cell_at code (table + 3 + 2 * k) in
    2 <= count /\ (forall k, 0 <= k < count -> value k = wrap32 (value 0 + k)) /\
    0 <= i < count /\ t = cell_at code (table + 4 + 2 * i) / 4.
Definition unshared (code : list Z) (m : Z) : Prop :=
  forall pc i pc' i' t, reaches code m pc -> reaches code m pc' -> sequence_case code pc i t -> sequence_case code pc' i' t ->
  pc = pc' /\ i = i'.

(* A run of the interpreter inside one activation, on instructions and states on which compiled code agrees. *)
Definition state_of (c : config) : ist := mkIst (c_rt c) (a_pri (c_cur c)) (a_alt (c_cur c)).
Definition agreeable (base : Z) (p : prog) (c : config) : Prop :=
  match decode (p_code p) (a_pc (c_cur c)) with
  | None | Some RETN | Some (CALL _) => False
  | Some i => agrees base (state_of c) i /\ operand_ok (p_natives p) (a_meth (c_cur c)) (state_of c) i
  end.
Inductive within (base : Z) (fe : fenv) (p : prog) (t : config -> bool) : config -> config -> Prop :=
| within_refl c : within base fe p t c c
| within_step c b c' c'' : agreeable base p c -> step false fe p t c = Next b c' -> within base fe p t c' c'' ->
                           within base fe p t c c''.

Section Follow.
Variables (base : Z) (env : rt) (fp : fpu) (natives : Z -> option native) (junk : gpr -> Z).
Variables (code : list Z) (m : Z) (mi : meth) (pr : pre) (g : graph) (rpo : list Z) (K : Z -> bool * bool).

(* The machine is at the interpreter's instruction, in a block that instruction lies in or follows, and holds its state. *)
Record matches (c : config) (j : jat) : Prop := {
  ma_cell : j_cell j = a_pc (c_cur c);
  ma_known : In (j_block j) (m :: g_known g);
  ma_span : span code m (pr_targets pr) (j_block j) (j_cell j);
  ma_reach : reaches code m (a_pc (c_cur c));
  ma_meth : a_meth (c_cur c) = mi;
  ma_run : running (state_of c);
  ma_env : same_plugin env (c_rt c);
  ma_hold : holds base (fst (K (a_pc (c_cur c)))) (snd (K (a_pc (c_cur c)))) (state_of c) (j_x j)
}.

Inductive jruns : jat -> jat -> Prop :=
| jruns_refl j : jruns j j
| jruns_step j b j' j'' : jstep base env fp natives junk code mi g rpo j = JAt b j' -> jruns j' j'' -> jruns j j''.

(* A stretch of compiled code the watchdog cannot interrupt: no recorded jump is taken. *)
Inductive unrecorded : nat -> jat -> jat -> Prop :=
| unrec_0 j : unrecorded 0 j j
| unrec_S n j j' j'' : jstep base env fp natives junk code mi g rpo j = JAt false j' -> unrecorded n j' j'' -> unrecorded (S n) j j''.
End Follow.

(* ---- Calls ---- *)

(* Entering a compiled method: the caller's frame and heap pointers go on the stack, the frame starts at them, and the
   locals follow.  There is room if the most the method pushes leaves the margin above the heap. *)
Definition on_entry (locals : Z) (r : rt) : rt :=
  set_sp (sp r - 8 + locals) (set_frm (sp r - 8) (set_mem (store32 (store32 (mem r) (sp r - 4) (frm r)) (sp r - 8) (hp r)) r)).
Definition room (max_stack : Z) (r : rt) : Prop := max_stack = 0 \/ hp r + 64 <= sp r - 8 - max_stack.

(* The heap scope [n] levels out: each scope's first cell is the address of the one around it. *)
Fixpoint scope_out (m : memory) (n : nat) (h : Z) : Z := match n with O => h | S n' => scope_out m n' (load32 m h) end.
Fixpoint scopes_in (m : memory) (size : Z) (n : nat) (h : Z) : Prop :=
  match n with O => True | S n' => 0 <= h /\ h + 4 <= size /\ scopes_in m size n' (load32 m h) end.

(* Returning: the words at the frame say what the caller's heap and frame pointers were, and how many arguments to drop. *)
Definition on_return (scopes : nat) (r : rt) : rt :=
  set_sp (frm r + 12 + 4 * load32 (mem r) (frm r + 8))
    (set_frm (load32 (mem r) (frm r + 4)) (set_hp (load32 (mem r) (frm r)) (set_hp_scope (scope_out (mem r) scopes (hp_scope r)) r))).
Record can_return (scopes : nat) (r : rt) : Prop := {
  cr_frame : 0 <= frm r /\ frm r + 12 <= mem_size r;
  cr_words : 0 <= load32 (mem r) (frm r) /\ 0 <= load32 (mem r) (frm r + 4) < mem_size r /\ 0 <= load32 (mem r) (frm r + 8);
  cr_scopes : scopes_in (mem r) (mem_size r) scopes (hp_scope r)
}.

(* ---- Interrupting compiled code ---- *)

(* A place in a compiled method. *)
Record in_method (code : list Z) (m : Z) (pr : pre) (g : graph) (j : jat) : Prop := {
  im_known : In (j_block j) (m :: g_known g);
  im_span : span code m (pr_targets pr) (j_block j) (j_cell j);
  im_reach : reaches code m (j_cell j)
}.
(* The instruction there is a switch, or a conditional jump whose fall-through is a block emitted earlier (or the same). *)
Definition slips (code : list Z) (rpo : list Z) (j : jat) : Prop :=
  match decode code (j_cell j) with
  | Some (SWITCH _) => True
  | Some (JCMP _ _) => id_of rpo (j_cell j + 2) <= id_of rpo (j_block j)
  | _ => False
  end.
Inductive quietly base env fp natives junk code mi g rpo : nat -> jat -> jat -> Prop :=
| quietly_0 j : quietly base env fp natives junk code mi g rpo 0 j j
| quietly_S n j j' j'' : jstep base env fp natives junk code mi g rpo j = JAt false j' -> ~ slips code rpo j ->
    quietly base env fp natives junk code mi g rpo n j' j'' -> quietly base env fp natives junk code mi g rpo (S n) j j''.
