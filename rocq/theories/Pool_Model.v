(* Model of the append-only stores the compiler writes tables into: the growable byte buffer
   (utils/byte-buffer.h), the deduplicating data pool (libsmx/data-pool.{h,cpp}) and the name table
   (libsmx/smx-builder.{h,cpp}).

   Not modelled: hashing (the maps of AMTL and of the C++ library are association lists searched by
   equality of keys), failure of the host allocator (it throws), and the interning of strings into
   atoms (an atom is the byte string it stands for, so equal strings are equal atoms). *)
From Verif Require Import Base.

Definition INT_MAX : Z := 2147483647.

(* utils/byte-buffer.h: [used] are the bytes in [buffer_, buffer_pos_), [capacity] is
   buffer_end_ - buffer_. *)
Record byte_buffer : Type := mkBB { used : list Z; capacity : Z; oom : bool }.

Definition size (b : byte_buffer) : Z := Z.of_nat (length (used b)).

(* utils/byte-buffer.h:35-40, kInitialSize at 132. *)
Definition new_buffer : byte_buffer := mkBB [] 256 false.

(* utils/byte-buffer.h:113-127: the contents are copied over, only the capacity changes. *)
Definition tryRealloc (b : byte_buffer) (new_size : Z) : option byte_buffer :=
  if new_size >? INT_MAX then None else Some (mkBB (used b) new_size (oom b)).

(* utils/byte-buffer.h:99-111.  ke::IsUintPtrAddSafe on a 64-bit size_t. *)
Definition growBy (b : byte_buffer) (extra : Z) : option byte_buffer :=
  let prev := capacity b in
  let second :=
    if prev + extra <? two64 then tryRealloc b (prev + extra) else None in
  if prev + prev / 2 <? two64 then
    let ns := prev + prev / 2 in
    if ns - size b >=? extra then
      match tryRealloc b ns with Some b' => Some b' | None => second end
    else second
  else second.

(* utils/byte-buffer.h:90-97.  The buffer and whether there is room. *)
Definition ensureSpace (b : byte_buffer) (n : Z) : byte_buffer * bool :=
  if capacity b - size b <? n then
    match growBy b n with
    | Some b' => (b', true)
    | None => (mkBB (used b) (capacity b) true, false)
    end
  else (b, true).

(* utils/byte-buffer.h:51-57. *)
Definition writeBytes (b : byte_buffer) (data : list Z) : byte_buffer * bool :=
  let '(b', room) := ensureSpace b (Z.of_nat (length data)) in
  if room then (mkBB (used b' ++ data) (capacity b') (oom b'), true) else (b', false).

Fixpoint bytes_eqb (a b : list Z) : bool :=
  match a, b with
  | [], [] => true
  | x :: a', y :: b' => (x =? y) && bytes_eqb a' b'
  | _, _ => false
  end.

(* libsmx/data-pool.h:47-75. *)
Record data_pool : Type := mkPool { buffer : byte_buffer; pool_map : list (list Z * Z) }.

Definition lookup (m : list (list Z * Z)) (run : list Z) : option Z :=
  option_map snd (find (fun e => bytes_eqb (fst e) run) m).

(* libsmx/data-pool.cpp:24-28. *)
Definition new_pool : data_pool := mkPool (fst (writeBytes new_buffer [0])) [].

(* libsmx/data-pool.cpp:30-51; buffer_.position() is the number of bytes in use. *)
Definition pool_add (p : data_pool) (run : list Z) : data_pool * Z :=
  match lookup (pool_map p) run with
  | Some index => (p, index)
  | None =>
      let index := size (buffer p) in
      let '(b', ok) := writeBytes (buffer p) run in
      if ok then (mkPool b' ((run, index) :: pool_map p), index)
      else (mkPool b' (pool_map p), 0)
  end.

(* libsmx/smx-builder.h:190-236.  [names] is in insertion order; None is the call to abort(). *)
Record name_table : Type := mkNames { name_map : list (list Z * Z); names : list (list Z); buffer_size : Z }.

Definition new_names : name_table := mkNames [] [] 0.

(* libsmx/smx-builder.h:205-220. *)
Definition name_add (t : name_table) (str : list Z) : option (name_table * Z) :=
  match lookup (name_map t) str with
  | Some index => Some (t, index)
  | None =>
      let len := Z.of_nat (length str) in
      if u32_add_safe (buffer_size t) (len + 1) then
        let index := buffer_size t in
        Some (mkNames ((str, index) :: name_map t) (names t ++ [str]) (u32 (buffer_size t + (len + 1))),
              index)
      else None
  end.

(* libsmx/smx-builder.cpp:128-138: each name with its terminating zero. *)
Definition name_write (t : name_table) : list Z := flat_map (fun s => s ++ [0]) (names t).
