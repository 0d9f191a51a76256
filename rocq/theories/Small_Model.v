(* Models of three small pieces: error texts, string literals and the JIT's code allocator. *)
From Coq Require String. Import String.StringSyntax.
From Verif Require Import Base.
Open Scope string_scope.
Open Scope Z_scope.

(* ---- vm/environment.cpp:131-166: sErrorMsgTable ---- *)
Definition sErrorMsgTable : list (option String.string) :=
  [ None;
    Some "Unrecognizable file format";
    Some "Decompressor was not found";
    Some "Not enough space on the heap";
    Some "Invalid parameter or parameter type";
    Some "Invalid plugin address";
    Some "Object or index not found";
    Some "Invalid index or index not found";
    Some "Not enough space on the stack";
    Some "Debug section not found or debug not enabled";
    Some "Invalid instruction";
    Some "Invalid memory access";
    Some "Stack went below stack boundary";
    Some "Heap went below heap boundary";
    Some "Divide by zero";
    Some "Array index is out of bounds";
    Some "Instruction contained invalid parameter";
    Some "Stack memory leaked by native";
    Some "Heap memory leaked by native";
    Some "Dynamic array is too big";
    Some "Tracker stack is out of bounds";
    Some "Native is not bound";
    Some "Maximum number of parameters reached";
    Some "Native detected error";
    Some "Plugin not runnable";
    Some "Call was aborted";
    Some "Plugin format is too old";
    Some "Plugin format is too new";
    Some "Out of memory";
    Some "Integer overflow";
    Some "Script execution timed out";
    Some "Custom error";
    Some "Fatal error";
    Some "Invalid array size" ].

(* Reading an array: outside it the behaviour is undefined. *)
Inductive read (A : Type) : Type := Value (a : A) | OutsideTable.
Arguments Value {A}. Arguments OutsideTable {A}.
Definition index {A} (t : list A) (i : Z) : read A :=
  if i <? 0 then OutsideTable
  else match nth_error t (Z.to_nat i) with Some a => Value a | None => OutsideTable end.

(* vm/environment.cpp:168-173. *)
Definition GetErrorString (error : Z) : read (option String.string) :=
  if (error <? 1) || (error >? Z.of_nat (length sErrorMsgTable)) then Value None
  else index sErrorMsgTable error.

(* ---- compiler/lexer-inl.h:28-51: StringToCells; the cells handed to litadd, in order ---- *)
Fixpoint string_loop (str : list Z) (val byte : Z) : list Z :=
  match str with
  | [] => if byte =? 0 then [0] else [val]
  | c :: str' =>
      let val := Z.lor val (u32 (Z.shiftl c (8 * byte))) in
      if byte =? 3 then val :: string_loop str' 0 0 else string_loop str' val (byte + 1)
  end.
Definition StringToCells (str : list Z) : list Z := string_loop str 0 0.
(* compiler/sc.h:108-110 (cell arithmetic in size_t). *)
Definition char_array_cells (size : Z) : Z := (size + 4 - 1) / 4.

(* ---- vm/code-allocator.cpp ----
   Pools are named by their position in [pools]; the reference counts are represented by the operation
   that forgets a block (Drop).  The operating system is the argument [mmap]: what it answers for a
   request, None being a failure. *)
Definition kMallocAlignment : Z := 16.                 (* AMTL, 64-bit *)
Definition kMinPoolSize : Z := 1048576.                (* vm/code-allocator.cpp:90 *)
Definition kMaxCachedPools : nat := 8.                 (* 25 *)
(* ke::Align (AMTL) on a 64-bit size_t; alignments are powers of two. *)
Definition align (n a : Z) : Z := u64 (n + (a - 1)) / a * a.

Record pool : Type := { p_start : Z; p_ptr : Z; p_end : Z }.
Definition bytesFree (p : pool) : Z := p_end p - p_ptr p.        (* vm/code-allocator.h:39-41 *)
Record block : Type := { b_pool : nat; b_address : Z; b_bytes : Z }.
Record heap : Type := { pools : list pool; cached : list nat; live : list block }.
Definition no_code : heap := {| pools := []; cached := []; live := [] |}.
Definition pool_at (h : heap) (i : nat) : pool := nth i (pools h) {| p_start := 0; p_ptr := 0; p_end := 0 |}.

(* findPool, vm/code-allocator.cpp:68-81. *)
Fixpoint find_pool (h : heap) (bytes : Z) (cs : list nat) (min : option nat) : option nat :=
  match cs with
  | [] => min
  | i :: cs' =>
      let min :=
        if bytes >? bytesFree (pool_at h i) then min
        else match min with
             | None => Some i
             | Some m => if bytesFree (pool_at h i) <? bytesFree (pool_at h m) then Some i else Some m
             end in
      find_pool h bytes cs' min
  end.

Fixpoint set_pool (ps : list pool) (i : nat) (p : pool) : list pool :=
  match ps, i with
  | [], _ => []
  | _ :: ps', O => p :: ps'
  | q :: ps', S j => q :: set_pool ps' j p
  end.
(* allocateInPool and CodePool::allocate, 83-87 and 142-148; the assertion is the outcome None. *)
Definition allocateInPool (h : heap) (i : nat) (bytes : Z) : option (heap * block) :=
  let p := pool_at h i in
  if p_ptr p + bytes <=? p_end p then
    let b := {| b_pool := i; b_address := p_ptr p; b_bytes := bytes |} in
    Some ({| pools := set_pool (pools h) i {| p_start := p_start p; p_ptr := p_ptr p + bytes; p_end := p_end p |};
             cached := cached h; live := b :: live h |}, b)
  else None.

(* CodePool::AllocateFor, 92-128: how much is asked of the operating system. *)
Definition pool_bytes (page ask : Z) : Z := if ask <? kMinPoolSize then kMinPoolSize else align ask page.

(* The cache update, 52-63. *)
Fixpoint min_cached (h : heap) (cs : list nat) (pos : nat) (best : nat) : nat :=
  match cs with
  | [] => best
  | i :: cs' =>
      let best := if bytesFree (pool_at h i) <? bytesFree (pool_at h (nth best (cached h) O)) then pos else best in
      min_cached h cs' (S pos) best
  end.
Fixpoint set_nat (l : list nat) (i : nat) (v : nat) : list nat :=
  match l, i with
  | [], _ => []
  | _ :: l', O => v :: l'
  | x :: l', S j => x :: set_nat l' j v
  end.
Definition enter_cache (h : heap) (i : nat) : heap :=
  if Nat.ltb (length (cached h)) kMaxCachedPools then
    {| pools := pools h; cached := cached h ++ [i]; live := live h |}
  else
    let m := min_cached h (tl (cached h)) 1 0 in
    if bytesFree (pool_at h (nth m (cached h) O)) <? bytesFree (pool_at h i)
    then {| pools := pools h; cached := set_nat (cached h) m i; live := live h |}
    else h.

Inductive answer : Type := Block (b : block) | NoBlock | PoolOverrun.
(* CodeAllocator::Allocate, 33-66. *)
Definition Allocate (page : Z) (mmap : Z -> option Z) (raw : Z) (h : heap) : heap * answer :=
  let bytes := align raw kMallocAlignment in
  if bytes <? raw then (h, NoBlock)
  else match find_pool h bytes (cached h) None with
       | Some i => match allocateInPool h i bytes with Some (h', b) => (h', Block b) | None => (h, PoolOverrun) end
       | None =>
           let size := pool_bytes page bytes in
           match mmap size with
           | None => (h, NoBlock)
           | Some start =>
               let i := length (pools h) in
               let h := {| pools := pools h ++ [{| p_start := start; p_ptr := start; p_end := start + size |}];
                           cached := cached h; live := live h |} in
               match allocateInPool h i bytes with
               | None => (h, PoolOverrun)
               | Some (h', b) => (enter_cache h' i, Block b)
               end
           end
       end.
(* ~CodeChunk: the owner forgets the k-th live block. *)
Fixpoint remove_nth {A} (k : nat) (l : list A) : list A :=
  match l, k with [], _ => [] | _ :: l', O => l' | x :: l', S j => x :: remove_nth j l' end.
Definition Drop (k : nat) (h : heap) : heap :=
  {| pools := pools h; cached := cached h; live := remove_nth k (live h) |}.
