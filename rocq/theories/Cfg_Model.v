(* Model of the first two passes of bytecode verification: vm/graph-builder.cpp (prescan and scan)
   with the block structure of vm/control-flow.{h,cpp}.

   Positions are cell indices into the code (a byte offset divided by 4); the code section is a list of
   whole cells.  BitSets and the block map are lists used as sets (C39 shows BitSet is a set).  A block
   is named by the cell it starts at, which the block map makes unique; the entry block starts at the
   PROC cell, which nothing may jump to. *)
From Verif Require Import Base Rt_Model Array_Model Interp_Model.

(* Outcome of a pass: a result, a reported error, undefined behaviour (a failed assertion when
   [strict], a read outside the code), or fuel exhausted. *)
Inductive cres (A : Type) : Type :=
| CGood (a : A)
| CBad (e : err)
| CUndef (u : ub)
| CLoop.
Arguments CGood {A} a. Arguments CBad {A} e. Arguments CUndef {A} u. Arguments CLoop {A}.

Definition cbind {A B : Type} (m : cres A) (k : A -> cres B) : cres B :=
  match m with CGood a => k a | CBad e => CBad e | CUndef u => CUndef u | CLoop => CLoop end.

Definition OP_RETN : Z := 48.
Definition OP_JUMP : Z := 51.
Definition OP_SWITCH : Z := 129.
(* include/smx/smx-v1-opcodes.h:230-258: 217 is the last of the list, 18 internal ones follow. *)
Definition OPCODES_LAST : Z := 236.

(* The jump opcodes of IsControlOpcode, vm/graph-builder.cpp:99-117. *)
Definition is_jump (op : Z) : bool :=
  existsb (Z.eqb op) [51; 53; 54; 55; 56; 61; 62; 63; 64].

(* vm/graph-builder.cpp:99-117 IsControlOpcode. *)
Definition is_control (op : Z) : bool := is_jump op || (op =? OP_RETN) || (op =? OP_SWITCH).

Definition mem_z (x : Z) (l : list Z) : bool := existsb (Z.eqb x) l.

Section Prescan.
Variable strict : bool.      (* assertions compiled in *)
Variable code : list Z.
Variable start : Z.          (* start_at_, in cells *)

Definition code_cells : Z := Z.of_nat (length code).

(* vm/graph-builder.cpp:368-394 prescan_jump_target; returns the new jump_targets_. *)
Definition jump_target (op target : Z) (targets : list Z) : cres (list Z) :=
  if target <? 0 then CBad INSTRUCTION_PARAM
  else if negb (target mod 4 =? 0) then CBad INSTRUCTION_PARAM
  else if code_cells * 4 <=? target then CBad INSTRUCTION_PARAM
  else if target / 4 <=? start then CBad INSTRUCTION_PARAM
  else CGood (if op =? OP_SWITCH then targets else target / 4 :: targets).

(* vm/graph-builder.cpp:410-417: the loop over [n] (value, offset) pairs from [pos]. *)
Fixpoint case_targets (n : nat) (pos : Z) (targets : list Z) : cres (list Z) :=
  match n with
  | O => CGood targets
  | S n' => cbind (jump_target OP_JUMP (cell_at code (pos + 1)) targets)
                  (fun t => case_targets n' (pos + 2) t)
  end.

(* vm/graph-builder.cpp:396-419 prescan_casetable: [pos] is the default offset's cell; the loop
   "while (pos < end)" runs (size - 1) / 2 times, not at all if that is negative.  The default offset
   is read without a check. *)
Definition casetable (pos size : Z) (targets : list Z) : cres (list Z) :=
  if (pos <? 0) || (code_cells <=? pos) then CUndef UBMem
  else cbind (jump_target OP_JUMP (cell_at code pos) targets)
             (fun t => case_targets (Z.to_nat ((size - 1) / 2)) (pos + 1) t).

Record pre := mkPre { pr_insns : list Z; pr_targets : list Z; pr_stop : Z }.

(* vm/graph-builder.cpp:311-361: the loop of prescan.  The int arithmetic ncases * 2 + 1 wraps.  A
   negative ncases moves backwards, possibly to before the code, where the next opcode is then read. *)
Fixpoint prescan_loop (fuel : nat) (cip : Z) (insns targets : list Z) : cres pre :=
  match fuel with
  | O => CLoop
  | S f =>
    if code_cells <? cip + 1 then CGood (mkPre insns targets cip)
    else if cip <? 0 then CUndef UBMem
    else
      let op := cell_at code cip in
      if (op =? OP_PROC) || (op =? OP_ENDPROC) then CGood (mkPre insns targets cip)
      else if (op <=? 0) || (OPCODES_LAST <=? op) then CBad INVALID_INSTRUCTION
      else
        let insns' := cip :: insns in
        cbind
          (if op =? OP_CASETBL then
             if code_cells <? cip + 2 then CBad INVALID_INSTRUCTION
             else
               let ncases := cell_at code (cip + 1) in
               if (two31 - 2) / 2 <? ncases then CBad INVALID_INSTRUCTION
               else CGood (cip + 2, wrap32 (ncases * 2 + 1))
           else
             let size := opcode_size op in
             if size =? 0 then (if strict then CUndef UBAssert else CBad INVALID_INSTRUCTION)
             else CGood (cip + 1, size - 1))
          (fun x =>
             let (c1, params) := x : Z * Z in
             if strict && (params <? 0) then CUndef UBAssert
             else if code_cells <? c1 + params then CBad INVALID_INSTRUCTION
             else
               cbind
                 (if is_control op && negb (op =? OP_RETN) then jump_target op (cell_at code c1) targets
                  else if op =? OP_CASETBL then casetable c1 params targets
                  else CGood targets)
                 (fun targets' => prescan_loop f (c1 + params) insns' targets'))
  end.

(* vm/graph-builder.cpp:297-366 prescan; [start] is aligned by construction. *)
Definition prescan (fuel : nat) : cres pre :=
  if code_cells <? start + 1 then CBad INVALID_INSTRUCTION
  else if negb (cell_at code start =? OP_PROC) then CBad INVALID_INSTRUCTION
  else prescan_loop fuel (start + 1) [] [].

End Prescan.

(* The graph under construction.  [g_known]: block_bitmap_/block_map_ (all blocks but the entry), newest
   first; [g_edges]: the addTarget calls (vm/control-flow.cpp Block::addTarget) in order; [g_ends]: the
   cell just past each finished block; [g_queue]: work_queue_, its back first. *)
Record graph := mkGraph {
  g_known : list Z; g_edges : list (Z * Z); g_ends : list (Z * Z); g_queue : list Z }.

Inductive flowres := FContinue | FEnded (g : graph) | FBad (e : err) | FUndef (u : ub).

(* vm/graph-builder.cpp:260-289 getOrAddBlock and enqueueBlock. *)
Definition get_or_add (b : Z) (g : graph) : graph :=
  if mem_z b (g_known g) then g
  else mkGraph (b :: g_known g) (g_edges g) (g_ends g) (b :: g_queue g).

Definition add_edge (a b : Z) (g : graph) : graph :=
  mkGraph (g_known g) (g_edges g ++ [(a, b)]) (g_ends g) (g_queue g).
Definition set_end (a e : Z) (g : graph) : graph :=
  mkGraph (g_known g) (g_edges g) ((a, e) :: g_ends g) (g_queue g).

Section Scan.
Variable strict : bool.
Variable code : list Z.
Variable start : Z.
Variable pr : pre.

Definition stop : Z := pr_stop pr.
Definition is_insn (c : Z) : bool := mem_z c (pr_insns pr).
Definition is_target (c : Z) : bool := mem_z c (pr_targets pr).

(* The offsets of the case table at cell [t]: default, then [n] cases
   (vm/graph-builder.cpp:230-241). *)
Fixpoint case_offsets (n : nat) (pos : Z) : list Z :=
  match n with
  | O => []
  | S n' => cell_at code (pos + 1) :: case_offsets n' (pos + 2)
  end.
Definition table_offsets (t : Z) : list Z :=
  cell_at code (t + 2) :: case_offsets (Z.to_nat (cell_at code (t + 1))) (t + 3).

(* vm/graph-builder.cpp:244-253: processing the case targets. *)
Fixpoint add_cases (cur : Z) (offs : list Z) (g : graph) : flowres :=
  match offs with
  | [] => FEnded g
  | o :: rest =>
    if negb (is_insn (o / 4)) then FBad INSTRUCTION_PARAM
    else if strict && negb (is_target (o / 4)) then FUndef UBAssert
    else add_cases cur rest (add_edge cur (o / 4) (get_or_add (o / 4) g))
  end.

(* vm/graph-builder.cpp:219-258 scanSwitchFlow: [insn] the SWITCH, [t] the table. *)
Definition scan_switch (cur insn t : Z) (g : graph) : flowres :=
  if negb (is_insn t) then FBad INSTRUCTION_PARAM
  else if negb (cell_at code t =? OP_CASETBL) then FBad INSTRUCTION_PARAM
  else
    let n := cell_at code (t + 1) in
    (* reads past the code *)
    if code_cells code <? t + 3 + 2 * Z.max 0 n then FUndef UBMem
    else match add_cases cur (table_offsets t) g with
         | FEnded g' => FEnded (set_end cur (insn + opcode_size OP_SWITCH) g')
         | r => r
         end.

(* vm/graph-builder.cpp:119-217 scanFlow, for the block starting at [cur] and the instruction at
   [cip]. *)
Definition scan_flow (cur cip : Z) (g : graph) : flowres :=
  if stop <? cip + 1 then FBad INVALID_INSTRUCTION
  else if strict && negb (is_insn cip) then FUndef UBAssert
  else if is_target cip && negb (cur =? cip) then
    FEnded (set_end cur cip (add_edge cur cip (get_or_add cip g)))
  else
    let op := cell_at code cip in
    if negb (is_control op) then FContinue
    else if op =? OP_RETN then FEnded (set_end cur (cip + 1) g)
    else
      let t := cell_at code (cip + 1) / 4 in
      if negb (is_insn t) then FBad INSTRUCTION_PARAM
      else if op =? OP_SWITCH then scan_switch cur cip t g
      else if strict && negb (is_target t) then FUndef UBAssert
      else
        let g1 := get_or_add t g in
        if op =? OP_JUMP then FEnded (set_end cur (cip + 2) (add_edge cur t g1))
        else if stop <? cip + 2 + 1 then FBad INVALID_INSTRUCTION
        else FEnded (set_end cur (cip + 2)
                       (add_edge cur t (add_edge cur (cip + 2) (get_or_add (cip + 2) g1)))).

(* vm/graph-builder.cpp:69-96: the loop of scan.  NextInstruction is the instruction's size. *)
Fixpoint scan_loop (fuel : nat) (cur cip : Z) (g : graph) : cres graph :=
  match fuel with
  | O => CLoop
  | S f =>
    match scan_flow cur cip g with
    | FBad e => CBad e
    | FUndef u => CUndef u
    | FContinue => scan_loop f cur (cip + insn_size code cip) g
    | FEnded g' =>
      match g_queue g' with
      | [] => CGood g'
      | b :: q => scan_loop f b b (mkGraph (g_known g') (g_edges g') (g_ends g') q)
      end
    end
  end.

(* vm/graph-builder.cpp:53-97 scan. *)
Definition scan (fuel : nat) : cres graph :=
  scan_loop fuel start (start + 1) (mkGraph [] [] [] []).

End Scan.

(* The two passes on the method at cell [start]. *)
Definition scan_method (strict : bool) (fuel : nat) (code : list Z) (start : Z) : cres (pre * graph) :=
  cbind (prescan strict code start fuel)
        (fun pr => cbind (scan strict code start pr fuel) (fun g => CGood (pr, g))).
