(* Model of the per-plugin memory, stack and heap of the VM: vm/plugin-runtime.{h,cpp}.

   Conventions.  A pointer [memory_ + a] is represented by the offset [a]; the host is 64-bit, so
   forming [memory_ + a] for a 32-bit [a] never wraps.  Every byte access goes through the checked
   primitives below, which yield [UB UBMem] when any touched byte is outside [0, mem_size).
   Signed 32-bit additions that C++ leaves undefined on overflow are given their wrapping value
   (what the supported compilers emit). *)
From Verif Require Import Base.

(* SP_ERROR_* codes, include/sp_vm_types.h:71-104 (the ones the model raises). *)
Inductive err : Type :=
| HEAPLOW | PARAM | INVALID_ADDRESS | NOT_FOUND | STACKLOW | INVALID_INSTRUCTION | STACKMIN
| HEAPMIN | DIVIDE_BY_ZERO | ARRAY_BOUNDS | INSTRUCTION_PARAM | ARRAY_TOO_BIG | TRACKER_BOUNDS
| INVALID_NATIVE | PARAMS_MAX | NOT_RUNNABLE | INTEGER_OVERFLOW | TIMEOUT | INVALID_ARRAY_SIZE
| NATIVE_ERR | FILE_FORMAT.

(* Undefined behaviour of the C++ program: out-of-bounds memory access, undefined arithmetic
   (shift counts, overflow in strict mode), violated assertion. *)
Inductive ub : Type := UBMem | UBArith | UBAssert.

Definition err_eq_dec (a b : err) : {a = b} + {a <> b}.
Proof. decide equality. Defined.

Inductive res (S A : Type) : Type :=
| Ok (a : A) (s : S)
| Fail (e : err) (s : S)
| UB (u : ub).
Arguments Ok {S A}. Arguments Fail {S A}. Arguments UB {S A}.

Definition ret {S A} (a : A) : S -> res S A := fun s => Ok a s.
Definition fail {S A} (e : err) : S -> res S A := fun s => Fail e s.
Definition undef {S A} (u : ub) : S -> res S A := fun _ => UB u.
Definition bind {S A B} (m : S -> res S A) (k : A -> S -> res S B) : S -> res S B :=
  fun s => match m s with Ok a s' => k a s' | Fail e s' => Fail e s' | UB u => UB u end.
Notation "x <- m ;; k" := (bind m (fun x => k)) (at level 61, m at next level, right associativity).
Notation "m ;;; k" := (bind m (fun _ => k)) (at level 61, right associativity).

(* vm/plugin-runtime.h:256-273 fields; [heap_scopes]/[direct_arrays] are the code feature bits
   (vm/plugin-runtime.cpp:539-549).  memory_ is the byte function [mem] on [0, mem_size). *)
Record rt : Type := mkRt {
  mem : memory;
  mem_size : Z;
  data_size : Z;
  hp : Z; sp : Z; stp : Z; frm : Z; hp_scope : Z;
  heap_scopes : bool;
  direct_arrays : bool
}.

Definition set_mem m s := mkRt m (mem_size s) (data_size s) (hp s) (sp s) (stp s) (frm s) (hp_scope s) (heap_scopes s) (direct_arrays s).
Definition set_hp v s := mkRt (mem s) (mem_size s) (data_size s) v (sp s) (stp s) (frm s) (hp_scope s) (heap_scopes s) (direct_arrays s).
Definition set_sp v s := mkRt (mem s) (mem_size s) (data_size s) (hp s) v (stp s) (frm s) (hp_scope s) (heap_scopes s) (direct_arrays s).
Definition set_frm v s := mkRt (mem s) (mem_size s) (data_size s) (hp s) (sp s) (stp s) v (hp_scope s) (heap_scopes s) (direct_arrays s).
Definition set_hp_scope v s := mkRt (mem s) (mem_size s) (data_size s) (hp s) (sp s) (stp s) (frm s) v (heap_scopes s) (direct_arrays s).

Notation RM A := (rt -> res rt A).

Definition STACK_MARGIN : Z := 64.      (* vm/plugin-runtime.h:28: 16 * sizeof(cell_t) *)
Definition kMinHeapSize : Z := 16384.   (* vm/plugin-runtime.cpp:37 *)

(* Checked raw accesses: *reinterpret_cast<T*>(memory_ + a). *)
Definition in_mem (s : rt) (a n : Z) : bool := (0 <=? a) && (a + n <=? mem_size s).

Definition rd32 (a : Z) : RM Z := fun s =>
  if in_mem s a 4 then Ok (load32 (mem s) a) s else UB UBMem.
Definition wr32 (a v : Z) : RM unit := fun s =>
  if in_mem s a 4 then Ok tt (set_mem (store32 (mem s) a v) s) else UB UBMem.
Definition rd64 (a : Z) : RM Z := fun s =>
  if in_mem s a 8 then Ok (load64 (mem s) a) s else UB UBMem.
Definition wr64 (a v : Z) : RM unit := fun s =>
  if in_mem s a 8 then Ok tt (set_mem (store64 (mem s) a v) s) else UB UBMem.
Definition wr8 (a v : Z) : RM unit := fun s =>
  if in_mem s a 1 then Ok tt (set_mem (fill_bytes (mem s) a 1 (v mod 256)) s) else UB UBMem.
Definition wr16 (a v : Z) : RM unit := fun s =>
  if in_mem s a 2
  then Ok tt (set_mem (write_bytes (mem s) a [byte_of 0 v; byte_of 1 v]) s) else UB UBMem.
(* memset(memory_ + a, 0, n), n > 0 touches [a, a+n). *)
Definition clear (a n : Z) : RM unit := fun s =>
  if n <=? 0 then Ok tt s
  else if in_mem s a n then Ok tt (set_mem (fill_bytes (mem s) a n 0) s) else UB UBMem.
(* memmove(memory_ + d, memory_ + a, n). *)
Definition move (d a n : Z) : RM unit := fun s =>
  if n <=? 0 then Ok tt s
  else if in_mem s a n && in_mem s d n
       then Ok tt (set_mem (move_bytes (mem s) d a n) s) else UB UBMem.

Definition get {A} (f : rt -> A) : RM A := fun s => Ok (f s) s.
Definition put (f : rt -> rt) : RM unit := fun s => Ok tt (f s).
(* [if (c) { ReportErrorNumber(e); return false; }] *)
Definition throw_if (c : bool) (e : err) : RM unit := if c then fail e else ret tt.
(* assert(c) of a debug build. *)
Definition assert_ (c : bool) : RM unit := if c then ret tt else undef UBAssert.

(* vm/plugin-runtime.cpp:39-68, constructor, and :127-131 memory initialisation: [data] are the
   bytes of the .data blob, [heap] the memsize field of its header.  Simplification: ke::Align and
   the additions are on unbounded integers (the model is only used with sizes below 2^31). *)
Definition align4 (n : Z) : Z := (n + 3) / 4 * 4.
Definition initial_mem_size (dsize heap : Z) : Z :=
  let m := align4 (Z.max heap dsize) in
  if m <? dsize + kMinHeapSize then dsize + kMinHeapSize else m.
Definition make_rt (data : list Z) (heap : Z) (hs da : bool) : rt :=
  let d := Z.of_nat (length data) in
  let m := initial_mem_size d heap in
  mkRt (write_bytes (fun _ => 0) 0 data) m d d (m - 4) (m - 4) (m - 4) (-1) hs da.

(* vm/plugin-runtime.cpp:1243-1250. *)
Definition bad_address (s : rt) (a : Z) : bool :=
  (a <? 0) || ((a >=? hp s) && (a <? sp s)) || (a >=? stp s).
Definition throwIfBadAddress (a : Z) : RM Z := fun s =>
  if bad_address s a then Fail INVALID_ADDRESS s else Ok a s.

(* vm/plugin-runtime.cpp:1233-1241; address + bounds - 1 is computed in uint32_t and converted
   back to cell_t by the call. *)
Definition acquireAddrRange (a bounds : Z) : RM Z :=
  p <- throwIfBadAddress a;;
  if bounds =? 0 then ret p
  else throwIfBadAddress (wrap32 (a + bounds - 1));;; ret p.

(* vm/plugin-runtime.h:206-217. *)
Definition acquireInt64Addr (a : Z) : RM Z := acquireAddrRange a 8.
(* On a bad address a debug build asserts and a release build returns a null pointer, which every
   caller dereferences: a memory error either way. *)
Definition acquireInt64Slot (off : Z) : RM Z := fun s =>
  let a := wrap32 (frm s + off) in
  if bad_address s a then UB UBMem else Ok a s.

(* vm/plugin-runtime.cpp:1133-1142. *)
Definition pushStack (v : Z) : RM unit :=
  s <- get (fun s => s);;
  throw_if (sp s <=? wrap32 (hp s + 4)) STACKLOW;;;
  put (set_sp (wrap32 (sp s - 4)));;;
  a <- get sp;;
  wr32 a v.

(* vm/plugin-runtime.cpp:1144-1155. *)
Definition popStack : RM Z :=
  s <- get (fun s => s);;
  throw_if (sp s >=? stp s) STACKMIN;;;
  v <- rd32 (sp s);;
  put (set_sp (wrap32 (sp s + 4)));;;
  ret v.

(* vm/plugin-runtime.cpp:1157-1175. *)
Definition getFrameValue (off : Z) : RM Z :=
  f <- get frm;; a <- throwIfBadAddress (wrap32 (f + off));; rd32 a.
Definition setFrameValue (off v : Z) : RM unit :=
  f <- get frm;; a <- throwIfBadAddress (wrap32 (f + off));; wr32 a v.

(* vm/plugin-runtime.cpp:1177-1204. *)
Definition getCellValue (addr : Z) : RM Z := a <- throwIfBadAddress addr;; rd32 a.
Definition setCellValue (addr v : Z) : RM unit := a <- throwIfBadAddress addr;; wr32 a v.

(* vm/plugin-runtime.cpp:1206-1231; result: the address stored to *out. *)
Definition heapAlloc (amount : Z) : RM Z :=
  s <- get (fun s => s);;
  let new_hp := wrap32 (hp s + amount) in
  (if amount <? 0
   then throw_if (new_hp <? wrap32 (data_size s)) HEAPMIN
   else throw_if (wrap32 (new_hp + STACK_MARGIN) >? sp s) HEAPLOW);;;
  put (set_hp new_hp);;;
  ret (hp s).

(* vm/plugin-runtime.cpp:1252-1271. *)
Definition addStack (amount : Z) : RM unit :=
  s <- get (fun s => s);;
  let new_sp := wrap32 (sp s + amount) in
  (if amount <? 0
   then throw_if (new_sp <? wrap32 (hp s + STACK_MARGIN)) STACKLOW
   else throw_if (new_sp >? stp s) STACKMIN);;;
  put (set_sp new_sp).

(* vm/plugin-runtime.cpp:809-825. *)
Definition popTrackerAndSetHeap : RM unit :=
  s <- get (fun s => s);;
  assert_ ((sp s >=? hp s) && (hp s >=? wrap32 (data_size s)));;;
  throw_if (wrap32 (hp s - wrap32 (data_size s)) <? 4) TRACKER_BOUNDS;;;
  put (set_hp (wrap32 (hp s - 4)));;;
  h <- get hp;;
  amt <- rd32 h;;
  throw_if ((amt <? 0) || (wrap32 (h - wrap32 (data_size s)) <? amt)) TRACKER_BOUNDS;;;
  put (set_hp (wrap32 (h - amt))).

(* vm/plugin-runtime.cpp:827-838; amount is uint32_t. *)
Definition pushTracker (amount : Z) : RM unit :=
  s <- get (fun s => s);;
  assert_ (negb (heap_scopes s));;;
  throw_if (u32 amount >? 2147483647) TRACKER_BOUNDS;;;
  throw_if (wrap32 (sp s - hp s) <? STACK_MARGIN) TRACKER_BOUNDS;;;
  wr32 (hp s) (wrap32 amount);;;
  put (set_hp (wrap32 (hp s + 4))).

(* vm/plugin-runtime.cpp:840-853. *)
Definition enterHeapScope : RM unit :=
  old <- get hp_scope;;
  a <- heapAlloc 4;;
  put (set_hp_scope a);;;
  p <- throwIfBadAddress a;;
  wr32 p old.

(* vm/plugin-runtime.cpp:855-868. *)
Definition leaveHeapScope : RM unit :=
  sc <- get hp_scope;;
  p <- throwIfBadAddress sc;;
  prev <- rd32 p;;
  put (set_hp sc);;;
  put (set_hp_scope prev);;;
  if prev =? -1 then ret tt else (throwIfBadAddress prev;;; ret tt).

(* vm/plugin-runtime.cpp:1071-1090. *)
Definition pushAmxFrame : RM unit :=
  f <- get frm;;
  pushStack f;;;
  saved <- heapAlloc 4;;
  p <- throwIfBadAddress saved;;
  sc <- get hp_scope;;
  wr32 p sc;;;
  pushStack saved;;;
  s <- get sp;;
  put (set_frm s).

(* vm/plugin-runtime.cpp:1092-1131.  [nargs * sizeof(cell_t)] is a 64-bit product; its sum with
   sp_ is truncated to cell_t for the comparison and by the compound assignment. *)
Definition popAmxFrame : RM unit :=
  f <- get frm;;
  put (set_sp f);;;
  saved <- popStack;;
  p <- throwIfBadAddress saved;;
  sc <- rd32 p;;
  put (set_hp_scope sc);;;
  put (set_hp saved);;;
  s <- get (fun s => s);;
  throw_if ((u32 (hp s) <? data_size s) || (hp s >? sp s)) INVALID_ADDRESS;;;
  f' <- popStack;;
  put (set_frm f');;;
  nargs <- popStack;;
  s <- get (fun s => s);;
  throw_if ((nargs <? 0) || (wrap32 (sp s + nargs * 4) >? stp s)) STACKMIN;;;
  put (set_sp (wrap32 (sp s + nargs * 4))).

(* vm/plugin-runtime.cpp:585-607. *)
Definition local_bad (s : rt) (a : Z) : bool :=
  ((a >=? hp s) && (a <? sp s)) || (a <? 0) || (u32 a >=? mem_size s).
Definition LocalToPhysAddr (a : Z) : RM Z := fun s =>
  if local_bad s a then Fail INVALID_ADDRESS s else Ok a s.

(* vm/plugin-runtime.cpp:551-583 (host API HeapAlloc); [cells] unsigned; memset is debug only. *)
Definition AllocArray (cells : Z) : RM Z :=
  s <- get (fun s => s);;
  assert_ (cells <? 536870911);;;   (* CELLBOUNDMAX *)
  let realmem := u32 (cells * 4) in
  throw_if (wrap32 (sp s - hp s - realmem) <? STACK_MARGIN) HEAPLOW;;;
  wr32 (hp s) (wrap32 cells);;;
  put (set_hp (wrap32 (hp s + 4 + realmem)));;;
  ret (wrap32 (hp s + 4)).
