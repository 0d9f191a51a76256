(* Model of array creation in the VM: vm/plugin-runtime.cpp:870-1069, 1273-1379. *)
From Verif Require Import Base Rt_Model.

(* dims[i], 0-based, as the C array access. *)
Definition dim_at (dims : list Z) (i : nat) : Z := nth i dims 0.

(* vm/plugin-runtime.cpp:877-909 GenerateInnerArrayIndirectionVectors (relative format).
   [dl] is the tail of the reversed dimension list starting at the current dimension
   (dim_list[dim], dim_list[dim+1], ...); [dim < dim_count - 2] is "at least two more".
   Offsets are in cells; [base] is the byte address of the array; the pair returned is
   (cur_offs, *data_offs). *)
Fixpoint inner_iv (base : Z) (dl : list Z) (cur data : Z) {struct dl} : RM (Z * Z) :=
  match dl with
  | [] => ret (cur, data)
  | d :: rest =>
    let write0 := cur in
    let cur0 := wrap32 (cur + d) in
    match rest with
    | _ :: _ :: _ =>
      (fix loop (k : nat) (w c da : Z) : RM (Z * Z) :=
         match k with
         | O => ret (c, da)
         | S k' =>
           wr32 (base + 4 * w) (wrap32 ((c - w) * 4));;;
           r <- inner_iv base rest c da;;
           loop k' (wrap32 (w + 1)) (fst r) (snd r)
         end) (Z.to_nat d) write0 cur0 data
    | _ =>
      (fix loop (k : nat) (w da : Z) : RM (Z * Z) :=
         match k with
         | O => ret (cur0, da)
         | S k' =>
           wr32 (base + 4 * w) (wrap32 ((da - w) * 4));;;
           loop k' (wrap32 (w + 1)) (wrap32 (da + hd 0 rest))
         end) (Z.to_nat d) write0 data
    end
  end.

(* vm/plugin-runtime.cpp:910-916 calc_indirection, on the same list tails. *)
Fixpoint calc_indirection (dl : list Z) : Z :=
  match dl with
  | [] => 0
  | d :: rest =>
    match rest with
    | _ :: _ :: _ => wrap32 (d + d * calc_indirection rest)
    | _ => d
    end
  end.

(* vm/plugin-runtime.cpp:918-936. *)
Definition relative_ivs (base : Z) (dims : list Z) : RM Z :=
  let dl := rev dims in
  r <- inner_iv base dl 0 (calc_indirection dl);;
  ret (snd r).

(* vm/plugin-runtime.cpp:938-965 GenerateAbsoluteIndirectionVectors.  Result: (offset of this
   vector, iv_cursor, data_cursor).  info.ptr = memory_ + info.addr. *)
Fixpoint absolute_iv (addr : Z) (dims : list Z) (dim : nat) (iv data : Z) : RM (Z * Z * Z) :=
  match dim with
  | O => ret (data, iv, wrap32 (data + dim_at dims 0 * 4))
  | S d' =>
    let n := dim_at dims dim in
    (fix loop (k : nat) (i iv' data' : Z) : RM (Z * Z * Z) :=
       match k with
       | O => ret (iv, iv', data')
       | S k' =>
         r <- absolute_iv addr dims d' iv' data';;
         let '(off, iv'', data'') := r in
         wr32 (addr + wrap32 (iv + i * 4)) (wrap32 (addr + off));;;
         loop k' (i + 1) iv'' data''
       end) (Z.to_nat n) 0 (wrap32 (iv + n * 4)) data
  end.

(* vm/plugin-runtime.cpp:979-991: the size loop over dims[1..]; (cells, iv_size) or refusal. *)
Fixpoint full_array_size (ds : list Z) (cells iv_size : Z) : option (Z * Z) :=
  match ds with
  | [] => Some (cells, iv_size)
  | d :: ds' =>
    if d <=? 0 then None
    else if negb (u32_mul_safe cells d) then None
    else
      let c1 := u32 (cells * d) in
      if negb (u32_add_safe c1 d) then None
      else full_array_size ds' (u32 (c1 + d)) (wrap32 (wrap32 (iv_size * d) + d * 4))
  end.

(* vm/plugin-runtime.cpp:967-1036 generateFullArray.  The dimensions are read from argv before
   anything is written (simplification: in the code they are re-read from argv, which the margin check keeps
   outside the written block unless sp_ < STACK_MARGIN; theorems assume sp_ >= STACK_MARGIN);
   [put_result] is the store argv[argc-1] = hp_. *)
Definition generateFullArray (dims : list Z) (autozero : bool) (put_result : Z -> RM unit)
  : RM unit :=
  match dims with
  | [] => undef UBMem
  | d0 :: ds =>
    if d0 <=? 0 then fail ARRAY_TOO_BIG
    else match full_array_size ds (u32 d0) 0 with
    | None => fail ARRAY_TOO_BIG
    | Some (cells, iv_size) =>
      if negb (u32_mul_safe cells 4) then fail ARRAY_TOO_BIG
      else
        let bytes := u32 (cells * 4) in
        s <- get (fun s => s);;
        if negb (u32_add_safe (hp s) bytes) then fail ARRAY_TOO_BIG
        else
          let new_hp := u32 (hp s + bytes) in
          throw_if (new_hp >=? u32 (sp s - STACK_MARGIN)) HEAPLOW;;;
          (if autozero then clear (hp s + iv_size) (u32 (bytes - iv_size)) else ret tt);;;
          (if direct_arrays s
           then (r <- absolute_iv (hp s) dims (length dims - 1)%nat 0 iv_size;;
                 let '(_, iv, data) := r in
                 assert_ ((iv =? iv_size) && (data =? wrap32 bytes)))
           else (offs <- relative_ivs (hp s) dims;; assert_ (u64 offs =? cells)));;;
          put_result (hp s);;;
          put (set_hp (wrap32 new_hp));;;
          if heap_scopes s then ret tt else pushTracker bytes
    end
  end.

(* Read [n] cells at byte address [a]. *)
Fixpoint rd_cells (a : Z) (n : nat) : RM (list Z) :=
  match n with
  | O => ret []
  | S n' => v <- rd32 a;; l <- rd_cells (a + 4) n';; ret (v :: l)
  end.

(* vm/plugin-runtime.cpp:1038-1069 generateArray; [stk] is the offset of the argument vector. *)
Definition generateArray (ndims stk : Z) (autozero : bool) : RM unit :=
  if ndims =? 1 then
    v <- rd32 stk;;
    let size := u32 v in
    if size <=? 0 then fail INVALID_ARRAY_SIZE
    else if negb (u32_mul_safe size 4) then fail ARRAY_TOO_BIG
    else
      s <- get (fun s => s);;
      wr32 stk (hp s);;;
      let bytes := u32 (size * 4) in
      throw_if (hp s + bytes >=? stk) HEAPLOW;;;
      put (set_hp (wrap32 (hp s + bytes)));;;
      (if heap_scopes s then ret tt else pushTracker bytes);;;
      (if autozero then (a <- rd32 stk;; clear a bytes) else ret tt)
  else
    dims <- rd_cells stk (Z.to_nat ndims);;
    generateFullArray dims autozero (fun v => wr32 (stk + 4 * (ndims - 1)) v).

(* vm/plugin-runtime.cpp:1312-1316: copy the indirection vectors, relocating each entry. *)
Fixpoint copy_ivs (n : nat) (dst src array_addr : Z) : RM unit :=
  match n with
  | O => ret tt
  | S n' => v <- rd32 src;; wr32 dst (wrap32 (v + array_addr));;;
            copy_ivs n' (dst + 4) (src + 4) array_addr
  end.

(* vm/plugin-runtime.cpp:1323-1327. *)
Fixpoint fill_cells (n : nat) (dst v : Z) : RM unit :=
  match n with
  | O => ret tt
  | S n' => wr32 dst v;;; fill_cells n' (dst + 4) v
  end.

(* vm/plugin-runtime.cpp:1273-1332 initArray; pointer comparisons are on 64-bit addresses.
   memcpy of non-overlapping ranges is [move]. *)
Definition initArray (array_addr dat_addr iv_size copy_size fill_size fill_value : Z) : RM unit :=
  iv_vec <- LocalToPhysAddr array_addr;;
  let data_vec := iv_vec + 4 * iv_size in
  s <- get (fun s => s);;
  throw_if (data_vec + 4 * copy_size + 4 * fill_size - 4 >=? mem_size s) INVALID_ADDRESS;;;
  (if (iv_size =? 0) && (copy_size =? 0) then ret tt
   else
     tpl <- LocalToPhysAddr dat_addr;;
     let tpl_data := tpl + 4 * iv_size in
     throw_if (tpl_data + 4 * copy_size - 4 >=? data_size s) INVALID_ADDRESS;;;
     copy_ivs (Z.to_nat iv_size) iv_vec tpl array_addr;;;
     move data_vec tpl_data (copy_size * 4));;;
  if fill_size =? 0 then ret tt
  else if fill_value =? 0 then clear (data_vec + 4 * copy_size) (fill_size * 4)
  else fill_cells (Z.to_nat fill_size) (data_vec + 4 * copy_size) fill_value.

(* vm/plugin-runtime.cpp:1361-1377: copy each row of [init] (a list of rows of [stride] cells) to
   the row the indirection vector designates. *)
Fixpoint init_rows (rows : list (list Z)) (i array_base : Z) : RM unit :=
  match rows with
  | [] => ret tt
  | row :: rows' =>
    v <- rd32 (array_base + 4 * i);;
    s <- get (fun s => s);;
    let elt := if direct_arrays s then v else wrap32 (array_base + i * 4 + v) in
    p <- LocalToPhysAddr elt;;
    (fix cp (l : list Z) (a : Z) : RM unit :=
       match l with [] => ret tt | c :: l' => wr32 a c;;; cp l' (a + 4) end) row p;;;
    init_rows rows' (i + 1) array_base
  end.

(* vm/plugin-runtime.cpp:1334-1379 HeapAlloc2dArray; [init] = None for a null pointer.  Result:
   *local_addr. *)
Definition HeapAlloc2dArray (length_ stride : Z) (init : option (list (list Z))) : RM Z :=
  if (length_ >? 2147483647) || (stride >? 2147483647) then fail ARRAY_TOO_BIG
  else
    base <- get hp;;
    generateFullArray [stride; length_] (match init with None => true | _ => false end)
                      (fun _ => ret tt);;;
    LocalToPhysAddr base;;;
    match init with
    | None => ret base
    | Some rows => init_rows rows 0 base;;; ret base
    end.
