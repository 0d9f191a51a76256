From Coq Require String. Import String.StringSyntax.
From Verif Require Import Base Small_Model.
Open Scope string_scope.
Open Scope Z_scope.

(* The error codes of include/sp_vm_types.h:71-103 that stand for an error, with the text users see. *)
Definition error_text : list (Z * String.string) :=
  [ (1, "Unrecognizable file format");            (* FILE_FORMAT *)
    (2, "Decompressor was not found");            (* DECOMPRESSOR *)
    (3, "Not enough space on the heap");          (* HEAPLOW *)
    (4, "Invalid parameter or parameter type");   (* PARAM *)
    (5, "Invalid plugin address");                (* INVALID_ADDRESS *)
    (6, "Object or index not found");             (* NOT_FOUND *)
    (7, "Invalid index or index not found");      (* INDEX *)
    (8, "Not enough space on the stack");         (* STACKLOW *)
    (9, "Debug section not found or debug not enabled"); (* NOTDEBUGGING *)
    (10, "Invalid instruction");                  (* INVALID_INSTRUCTION *)
    (11, "Invalid memory access");                (* MEMACCESS *)
    (12, "Stack went below stack boundary");      (* STACKMIN *)
    (13, "Heap went below heap boundary");        (* HEAPMIN *)
    (14, "Divide by zero");                       (* DIVIDE_BY_ZERO *)
    (15, "Array index is out of bounds");         (* ARRAY_BOUNDS *)
    (16, "Instruction contained invalid parameter"); (* INSTRUCTION_PARAM *)
    (17, "Stack memory leaked by native");        (* STACKLEAK *)
    (18, "Heap memory leaked by native");         (* HEAPLEAK *)
    (19, "Dynamic array is too big");             (* ARRAY_TOO_BIG *)
    (20, "Tracker stack is out of bounds");       (* TRACKER_BOUNDS *)
    (21, "Native is not bound");                  (* INVALID_NATIVE *)
    (22, "Maximum number of parameters reached"); (* PARAMS_MAX *)
    (23, "Native detected error");                (* NATIVE *)
    (24, "Plugin not runnable");                  (* NOT_RUNNABLE *)
    (25, "Call was aborted");                     (* ABORTED *)
    (26, "Plugin format is too old");             (* CODE_TOO_OLD *)
    (27, "Plugin format is too new");             (* CODE_TOO_NEW *)
    (28, "Out of memory");                        (* OUT_OF_MEMORY *)
    (29, "Integer overflow");                     (* INTEGER_OVERFLOW *)
    (30, "Script execution timed out");           (* TIMEOUT *)
    (31, "Custom error");                         (* USER *)
    (32, "Fatal error");                          (* FATAL *)
    (33, "Invalid array size") ].                 (* INVALID_ARRAY_SIZE *)
Definition known_code (e : Z) : Prop := In e (map fst error_text).

(* The bytes of cells in memory, lowest first. *)
Definition cell_bytes (v : Z) : list Z := [byte_of 0 v; byte_of 1 v; byte_of 2 v; byte_of 3 v].
Definition bytes_of_cells (cs : list Z) : list Z := flat_map cell_bytes cs.

(* Code allocation. *)
Definition apart (a la b lb : Z) : Prop := a + la <= b \/ b + lb <= a.
Definition blocks_apart (b c : block) : Prop := apart (b_address b) (b_bytes b) (b_address c) (b_bytes c).
(* A pool stays mapped while it is cached or a live block lies in it. *)
Definition mapped (h : heap) (i : nat) : Prop := In i (cached h) \/ exists b, In b (live h) /\ b_pool b = i.
(* The operating system hands out fresh, non-empty memory. *)
Definition honest (h : heap) (size : Z) (reply : option Z) : Prop :=
  match reply with
  | None => True
  | Some start => 0 < size /\ 0 <= start /\ start + size <= two64 /\
      forall i, mapped h i -> apart start size (p_start (pool_at h i)) (p_end (pool_at h i) - p_start (pool_at h i))
  end.
(* Heaps reachable by any requests, any releases and any honest replies. *)
Inductive reachable (page : Z) : heap -> Prop :=
| RStart : reachable page no_code
| RAlloc h raw reply : reachable page h -> 0 <= raw < two64 ->
    honest h (pool_bytes page (align raw kMallocAlignment)) reply ->
    reachable page (fst (Allocate page (fun _ => reply) raw h))
| RDrop h k : reachable page h -> reachable page (Drop k h).
