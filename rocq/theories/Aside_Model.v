(* How much memory a program asks to have set aside for its stack and heap.
   /repo/compiler/code-generator.cpp. *)
From Coq Require Import ZArith List Bool.
Import ListNotations.
Local Open Scope Z_scope.

(* sc.h:113 kMaxCells = INT_MAX / sizeof(cell) / 2. *)
Definition kMaxCells : Z := 268435455.

(* code-generator.h:190 CallGraph: the functions called by each function, in
   the order of EmitCall (code-generator.cpp:2046-2050).  The table is hashed;
   the first entry of the list is what begin() happens to be. *)
Notation graph := (list (Z * list Z)).
Definition find_node (g : graph) (f : Z) : option (list Z) :=
  match find (fun e => fst e =? f) g with Some e => Some (snd e) | None => None end.
Definition erase (g : graph) (f : Z) : graph := filter (fun e => negb (fst e =? f)) g.

(* The call graph, max_callee_stack of every function, max_script_memory_. *)
Record mst := { m_graph : graph; m_callee : Z -> Z; m_script : Z }.
Definition set_callee (st : mst) (f v : Z) : mst :=
  {| m_graph := m_graph st; m_callee := fun x => if x =? f then v else m_callee st x;
     m_script := m_script st |}.

(* Error 431 is TooBig. *)
Inductive outcome := Done (st : mst) | TooBig | OutOfFuel.

Section Usage.
(* max_local_stack of every function, code-generator.cpp:1991. *)
Variable loc : Z -> Z.

(* code-generator.cpp:2259-2283, the loop over the functions called, last one
   first; [vis] is the recursive call.  The sums are those of numbers below
   kMaxCells, so that IsUint32AddSafe holds. *)
Fixpoint each (vis : mst -> Z -> outcome) (caller : Z) (targets : list Z) (mx : Z) (st : mst) : outcome :=
  match targets with
  | nil => Done st
  | t :: rest =>
    let r :=
      if m_callee st t =? 0
      then match find_node (m_graph st) t with Some _ => vis st t | None => Done st end
      else Done st in
    match r with
    | Done st =>
      let need := loc t + m_callee st t in
      if kMaxCells <=? need then TooBig
      else each vis caller rest (Z.max mx need) (set_callee st caller (Z.max mx need))
    | o => o
    end
  end.

(* code-generator.cpp:2254-2299 ComputeStackUsage(iter). *)
Fixpoint visit (fuel : nat) (st : mst) (caller : Z) : outcome :=
  match fuel with
  | O => OutOfFuel
  | S fuel' =>
    let targets := match find_node (m_graph st) caller with Some l => l | None => nil end in
    let st := {| m_graph := erase (m_graph st) caller; m_callee := m_callee st; m_script := m_script st |} in
    match each (visit fuel') caller (rev targets) 0 st with
    | Done st =>
      let need := loc caller + m_callee st caller in
      if kMaxCells <=? need then TooBig
      else Done {| m_graph := m_graph st; m_callee := m_callee st; m_script := Z.max need (m_script st) |}
    | o => o
    end
  end.

(* code-generator.cpp:2301-2306 ComputeStackUsage().  [script] is the greatest
   max_local_stack, code-generator.cpp:1993-1996. *)
Definition compute (g : graph) (script : Z) : outcome :=
  let st := {| m_graph := g; m_callee := fun _ => 0; m_script := script |} in
  match g with
  | nil => Done st
  | (f, _) :: _ => visit (S (length g)) st f
  end.
End Usage.

(* Conversion of a size_t to an int. *)
Definition to_int (x : Z) : Z := (x + 2 ^ 31) mod 2 ^ 32 - 2 ^ 31.

(* code-generator.cpp:2215-2222 DynamicMemorySize, in bytes; [custom] is the
   number in #pragma dynamic (lexer.cpp:419). *)
Definition set_aside (script custom : Z) : Z :=
  let min_cells := if script <? kMaxCells - 4096 then script + 4096 else script in
  to_int (Z.max min_cells custom * 4).
