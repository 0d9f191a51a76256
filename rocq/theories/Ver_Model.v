(* Model of the last pass of bytecode verification, vm/method-verifier.{h,cpp}, and of what the engine does
   with its verdict, vm/method-info.{h,cpp}.

   Positions are cells, as in Cfg_Model.  An instruction is the decoded one of Interp_Model: verifyOp's case
   labels are the opcodes the decoder groups together, and [vsize] gives the cells each case consumes.
   Vectors are lists with their back first.  Data of blocks are maps from block names. *)
From Verif Require Import Base Rtti_Model Rt_Model Array_Model Interp_Model Cfg_Model Dom_Model.

(* A row of the rtti.methods table: include/smx/smx-typeinfo.h smx_rtti_method. *)
Record mrow := mkRow { m_start : Z; m_end : Z; m_sig : Z; m_locals : Z }.

(* What the verifier sees of the plugin.  [v_rtti]: rtti.data and the rows of rtti.methods, if the image has
   them (HasRtti). *)
Record venv := mkVenv {
  v_code : list Z;
  v_typed : bool;          (* code version >= CODE_VERSION_TYPED_STACK *)
  v_scopes : bool;         (* kCodeFeatureHeapScopes *)
  v_direct : bool;         (* kCodeFeatureDirectArrays *)
  v_mem : Z; v_dat : Z;    (* memSize_, datSize_ *)
  v_natives : Z;           (* NumNatives() *)
  v_rtti : option (list Z * list mrow) }.

(* vm/method-verifier.h:62-88 VerifyData without [entry]. *)
Record vdata := mkVd { vd_stack : Z; vd_heap : list Z; vd_tracker : list Z; vd_scope : Z }.
Definition vd0 : vdata := mkVd 0 [] [] 0.
Definition set_stack n d := mkVd n (vd_heap d) (vd_tracker d) (vd_scope d).
Definition set_heap l d := mkVd (vd_stack d) l (vd_tracker d) (vd_scope d).
Definition set_tracker l d := mkVd (vd_stack d) (vd_heap d) l (vd_scope d).
Definition set_scope n d := mkVd (vd_stack d) (vd_heap d) (vd_tracker d) n.

Definition INT_MAX4 : Z := 536870911.          (* INT_MAX / 4 *)
Definition SP_MAX_CALL_ARGUMENTS : Z := 127.   (* include/sp_vm_types.h:56 *)

(* vm/method-verifier.cpp:890-907 pushStack; the pair is the block's data and max_stack_. *)
Definition push_stack (n : Z) (x : vdata * Z) : cres (vdata * Z) :=
  let (d, mx) := x in
  let b := vd_stack d + u32 n in
  if two32 <=? b then CBad INSTRUCTION_PARAM
  else if INT_MAX4 <? b then CBad INSTRUCTION_PARAM
  else CGood (set_stack b d, if mx <? b then b else mx).

(* vm/method-verifier.cpp:909-919 popStack. *)
Definition pop_stack (n : Z) (x : vdata * Z) : cres (vdata * Z) :=
  let (d, mx) := x in
  if vd_stack d <? u32 n then CBad INSTRUCTION_PARAM
  else CGood (set_stack (vd_stack d - u32 n) d, mx).

(* vm/method-verifier.cpp:921-935 pushHeap, without heap scopes. *)
Definition push_heap (n : Z) (d : vdata) : cres vdata :=
  if (u32 n =? 0) || (INT_MAX4 <? u32 n) then CBad INSTRUCTION_PARAM
  else match vd_heap d with
       | [] => CGood (set_heap [n] d)
       | h :: t => if h =? -1 then CGood (set_heap (n :: h :: t) d) else CGood (set_heap (wrap32 (h + n) :: t) d)
       end.

(* vm/method-verifier.cpp:937-951 popHeap, without heap scopes. *)
Definition pop_heap (n : Z) (d : vdata) : cres vdata :=
  match vd_heap d with
  | [] => CBad INSTRUCTION_PARAM
  | h :: t =>
    if (h =? -1) || (u32 h <? u32 n) then CBad INSTRUCTION_PARAM
    else if wrap32 (h - n) =? 0 then CGood (set_heap t d) else CGood (set_heap (wrap32 (h - n) :: t) d)
  end.

(* vm/method-verifier.cpp:233-244: the loop of TRACKER_POP_SETHEAP over heap_balance; [None] is the error
   after the loop. *)
Fixpoint track_pop (heap : list Z) (amount : Z) : option (list Z) :=
  match heap with
  | [] => None
  | v :: rest =>
    if v =? -1 then None
    else if amount <? v then Some (wrap32 (v - amount) :: rest)
    else if wrap32 (amount - v) =? 0 then Some rest
    else track_pop rest (wrap32 (amount - v))
  end.

(* vm/method-verifier.cpp:472-480: the total of TRACKER_PUSH_C. *)
Fixpoint track_total (heap : list Z) (total val : Z) : Z :=
  match heap with
  | [] => total
  | v :: rest =>
    if v =? -1 then total
    else if val <=? wrap32 (total + v) then wrap32 (total + v)
    else track_total rest (wrap32 (total + v)) val
  end.

Section Op.
Variable env : venv.
Variable args : Z.               (* arg_count_ *)
Variable sizes : list Z.         (* local_sizes_ *)

(* vm/method-verifier.cpp:953-997 verifyStackOffset. *)
Definition stack_offset (d : vdata) (offset op_size : Z) : bool :=
  if v_typed env then
    if offset <? 0 then u32 (- offset - 1) <? args
    else (offset <? Z.of_nat (length sizes)) &&
         ((op_size =? 0) || (nth (Z.to_nat offset) sizes 0 =? op_size))
  else if 0 <=? offset then offset <? v_mem env - v_dat env
  else - offset <=? vd_stack d * 4.

(* vm/method-verifier.cpp:999-1006 verifyDatOffset. *)
Definition dat_offset (offset : Z) : bool := (0 <=? offset) && (offset <? v_dat env).

(* vm/method-verifier.cpp:1026-1043 verifyCallOffset. *)
Definition call_offset (o : Z) : bool :=
  (0 <=? o) && (o mod 4 =? 0) && (o / 4 <? code_cells (v_code env)) && (cell_at (v_code env) (o / 4) =? OP_PROC).

(* vm/method-verifier.cpp:113-134 ExtractPushConstant on the previous instruction of the block. *)
Definition push_constant (prev : option Z) : option Z :=
  match prev with
  | None => None
  | Some c => match decode (v_code env) c with Some (PUSH_C l) => Some (last l 0) | _ => None end
  end.

(* vm/method-verifier.cpp:611-640: the checks of INITARRAY's operands. *)
Definition kMaxCells : Z := 268435455.          (* INT_MAX / (2 * 4) *)
Definition initarray_ok (addr iv copy fill v : Z) : bool :=
  if (iv <? 0) || (copy <? 0) || (fill <? 0) || (kMaxCells <=? iv) || (kMaxCells <=? copy) || (kMaxCells <=? fill)
     || ((fill =? 0) && negb (v =? 0)) || negb (addr mod 4 =? 0) then false
  else
    let copy_addr := wrap32 (addr + iv * 4) in
    let fill_addr := wrap32 (copy_addr + copy * 4) in
    if (copy_addr <? addr) || (fill_addr <? copy_addr) || negb (u32_add_safe fill_addr (fill * 4)) then false
    else if (iv =? 0) && (copy =? 0) then true
    else dat_offset addr && dat_offset (wrap32 (wrap32 (addr + (iv + copy) * 4) - 1)).

Definition check (b : bool) (e : err) (x : vdata * Z) : cres (vdata * Z) := if b then CGood x else CBad e.

(* vm/method-verifier.cpp:136-677 verifyOp on the instruction [i]; [prev]: prev_cip_. *)
Definition verify_op (prev : option Z) (i : instr) (x : vdata * Z) : cres (vdata * Z) :=
  let (d, mx) := x in
  let heap_data (r : cres vdata) := cbind r (fun d' => CGood (d', mx)) in
  match i with
  | TRACKER_POP_SETHEAP =>
    if v_scopes env then CBad INVALID_INSTRUCTION
    else match vd_tracker d with
    | [] => CBad INVALID_INSTRUCTION
    | amount :: t =>
      if amount =? 0 then CGood (set_tracker t d, mx)
      else if amount =? -1 then
        match vd_heap d with
        | h :: hs => if h =? -1 then CGood (set_heap hs (set_tracker t d), mx) else CBad INVALID_INSTRUCTION
        | [] => CBad INVALID_INSTRUCTION
        end
      else match track_pop (vd_heap d) amount with
           | Some hs => CGood (set_heap hs (set_tracker t d), mx)
           | None => CBad INVALID_INSTRUCTION
           end
    end
  | SWAP _ => cbind (pop_stack 1 x) (push_stack 1)
  | PUSHR _ => push_stack 1 x
  | POP _ => pop_stack 1 x
  | ADDR _ o => check (stack_offset d o 0) INSTRUCTION_PARAM x
  | LOAD_S _ o | LREF_S _ o | SREF_S o _ | STOR_S o _ | INC_S o | DEC_S o | ZERO_S o | STOR_S_C o _ | CONST_S o _ =>
    check (stack_offset d o 4) INSTRUCTION_PARAM x
  | ZERO_S_I64 o | UN64 _ o | CVT_I64 o | BIN64 _ o | STOR_S_PRI_I64 o | STOR_S_C_I64 o _ _ =>
    check (stack_offset d o 8) INSTRUCTION_PARAM x
  | LOAD _ a | STOR a _ | INC a | DEC a | ZERO a | CONSTM a _ => check (dat_offset a) INSTRUCTION_PARAM x
  | LODB_I w | STRB_I w => check ((w =? 1) || (w =? 2) || (w =? 4)) INVALID_INSTRUCTION x
  | PUSH_C l => push_stack (Z.of_nat (length l)) x
  | PUSH l => cbind (check (forallb dat_offset l) INSTRUCTION_PARAM x) (push_stack (Z.of_nat (length l)))
  | PUSH_S l => cbind (check (forallb (fun o => stack_offset d o 4) l) INSTRUCTION_PARAM x) (push_stack (Z.of_nat (length l)))
  | PUSH_ADR l => cbind (check (forallb (fun o => stack_offset d o 0) l) INSTRUCTION_PARAM x) (push_stack (Z.of_nat (length l)))
  | PUSH_I_I64 => push_stack 2 x
  | CALL o =>
    match push_constant prev with
    | None => CBad INVALID_INSTRUCTION
    | Some n => cbind (check (call_offset o) INSTRUCTION_PARAM x) (pop_stack (wrap32 (n + 1)))
    end
  | TRACKER_PUSH_C v =>
    if v_scopes env then CBad INVALID_INSTRUCTION
    else if (v <? 0) || negb (v mod 4 =? 0) then CBad INVALID_INSTRUCTION
    else if (0 <? v / 4) && (track_total (vd_heap d) 0 (v / 4) <? v / 4) then CBad INVALID_INSTRUCTION
    else CGood (set_tracker (v / 4 :: vd_tracker d) d, mx)
  | HALT _ => CBad INVALID_INSTRUCTION
  | MOVS n | FILL n => check ((0 <=? n) && (n <=? v_mem env)) INSTRUCTION_PARAM x
  | STACK v =>
    if v_typed env then CBad INVALID_INSTRUCTION
    else if negb (v mod 4 =? 0) then CBad INSTRUCTION_PARAM
    else if v <? 0 then push_stack (Z.abs (Z.quot v 4)) x else pop_stack (Z.abs (Z.quot v 4)) x
  | HEAP v =>
    if negb (v mod 4 =? 0) then CBad INSTRUCTION_PARAM
    else if v_scopes env then check (0 <=? v) INSTRUCTION_PARAM x
    else if 0 <=? v then heap_data (push_heap (Z.abs (Z.quot v 4)) d) else heap_data (pop_heap (Z.abs (Z.quot v 4)) d)
  | SYSREQ_C n => check ((0 <=? n) && (n <? v_natives env)) INSTRUCTION_PARAM x
  | SYSREQ_N n k =>
    cbind (check ((0 <=? n) && (n <? v_natives env)) INSTRUCTION_PARAM x) (fun x =>
    cbind (push_stack 1 x) (fun x => cbind (pop_stack (wrap32 (k + 1)) x)
      (check ((0 <=? k) && (k <=? SP_MAX_CALL_ARGUMENTS)) INSTRUCTION_PARAM)))
  | LOAD_BOTH a b => check (dat_offset a && dat_offset b) INSTRUCTION_PARAM x
  | LOAD_S_BOTH a b => check (stack_offset d a 4 && stack_offset d b 4) INSTRUCTION_PARAM x
  | GENARRAY n _ =>
    cbind (check (0 <? n) INSTRUCTION_PARAM x) (fun x =>
    cbind (pop_stack (n - 1) x) (fun y => let (d, mx) := y : vdata * Z in
      if v_scopes env then CGood (d, mx) else CGood (set_tracker (-1 :: vd_tracker d) (set_heap (-1 :: vd_heap d) d), mx)))
  | INITARRAY _ addr iv copy fill v =>
    if v_direct env then check (initarray_ok addr iv copy fill v) INSTRUCTION_PARAM x else CBad INVALID_INSTRUCTION
  | HEAP_SAVE => if v_scopes env then CGood (set_scope (u32 (vd_scope d + 1)) d, mx) else CBad INVALID_INSTRUCTION
  | HEAP_RESTORE =>
    if v_scopes env then if vd_scope d =? 0 then CBad INVALID_INSTRUCTION else CGood (set_scope (vd_scope d - 1) d, mx)
    else CBad INVALID_INSTRUCTION
  | ENDPROC => CBad INVALID_INSTRUCTION
  | _ => CGood x
  end.

(* The cells verifyOp moves cip_ by, its opcode included. *)
Definition vsize (i : instr) : Z :=
  match i with
  | ADDR _ _ | LOAD_S _ _ | LREF_S _ _ | SREF_S _ _ | STOR_S _ _ | INC_S _ | DEC_S _ | ZERO_S _ | ZERO_S_I64 _
  | UN64 _ _ | CVT_I64 _ | BIN64 _ _ | STOR_S_PRI_I64 _ | LOAD _ _ | STOR _ _ | INC _ | DEC _ | ZERO _ | LODB_I _
  | STRB_I _ | CALL _ | JUMP _ | JCMP _ _ | SHL_C _ _ | ADD_C _ | SMUL_C _ | EQ_C _ _ | CONST _ _ | BOUNDS _ | SWITCH _
  | TRACKER_PUSH_C _ | MOVS _ | FILL _ | STACK _ | HEAP _ | SYSREQ_C _ | GENARRAY _ _ => 2
  | STOR_S_C _ _ | SYSREQ_N _ _ | LOAD_BOTH _ _ | LOAD_S_BOTH _ _ | CONSTM _ _ | CONST_S _ _ => 3
  | STOR_S_C_I64 _ _ _ => 4
  | INITARRAY _ _ _ _ _ _ => 6
  | PUSH_C l | PUSH l | PUSH_S l | PUSH_ADR l => 1 + Z.of_nat (length l)
  | CASETBL n => wrap32 (n * 2 + 3)
  | _ => 1
  end.

(* The cells verifyOp reads. *)
Definition vreads (i : instr) : Z := match i with CASETBL _ => 2 | _ => vsize i end.

(* vm/method-verifier.cpp:86-95: the instructions of one block up to [e]. *)
Fixpoint verify_insns (fuel : nat) (e : Z) (prev : option Z) (cip : Z) (x : vdata * Z) : cres (vdata * Z) :=
  match fuel with
  | O => CLoop
  | S f =>
    if e <=? cip then CGood x
    else if (cip <? 0) || (code_cells (v_code env) <=? cip) then CUndef UBMem
    else match decode (v_code env) cip with
    | None => CBad INVALID_INSTRUCTION
    | Some i =>
      if code_cells (v_code env) <? cip + vreads i then CUndef UBMem
      else cbind (verify_op prev i x) (verify_insns f e (Some cip) (cip + vsize i))
    end
  end.
End Op.

(* --- Joins --- *)

(* vm/method-verifier.cpp:799-820: the walk over heap_balance for one tracker entry of [amount].  The vector
   is [rev near ++ rest] (back first) and heap_cursor is the length of [rest].  Erasing the first element of
   the vector leaves heap_cursor at 1. *)
Fixpoint merge_walk (fuel : nat) (near rest : list Z) (amount : Z) : cres (list Z * list Z) :=
  match fuel with
  | O => CLoop
  | S f =>
    match rest with
    | [] => CGood (near, rest)
    | h :: t =>
      if h <? amount then
        match t with
        | _ :: _ => merge_walk f near t (wrap32 (amount - h))
        | [] => match near with
                | n :: near' => merge_walk f near' [n] (wrap32 (amount - h))
                | [] => CUndef UBMem     (* *(begin() + 0) of an empty vector *)
                end
        end
      else if h =? amount then CGood (-1 :: near, t)
      else CGood (-1 :: near, wrap32 (h - amount) :: t)
    end
  end.

(* vm/method-verifier.cpp:774-821: the loop over the two tracker_balances, from the back. *)
Fixpoint merge_loop (mine theirs : list Z) (near rest : list Z) : cres (list Z * list Z) :=
  match mine with
  | [] => CGood ([], rev near ++ rest)
  | a :: mine' =>
    match theirs with
    | [] => CUndef UBMem
    | b :: theirs' =>
      let go t x := cbind (merge_loop mine' theirs' (fst x) (snd x)) (fun y => CGood (t :: fst y, snd y)) in
      if (a =? -1) || (b =? a) then go a (near, rest)
      else if a =? 0 then go (-1) (-1 :: near, rest)
      else match rest with
           | [] => CBad INSTRUCTION_PARAM
           | _ => cbind (merge_walk (S (length near + length rest)) near rest a) (go (-1))
           end
    end
  end.

Section Blocks.
Variable strict : bool.
Variable env : venv.
Variable g : graph.
Variable an : analysis.
Notation preds := (g_pred g).
Notation id := (id_of (an_rpo an)).

(* vm/method-verifier.cpp:693-698: up the dominator tree to a loop header. *)
Fixpoint up_to_header (fuel : nat) (dom : Z) : cres Z :=
  match fuel with
  | O => CLoop
  | S f =>
    if mem_z dom (an_headers an) then CGood dom
    else match preds dom with
         | [] => CGood dom
         | _ => match an_idom an dom with None => CUndef UBMem | Some d => up_to_header f d end
         end
  end.

(* vm/method-verifier.cpp:715-727: the predecessors of one block of the loop. *)
Fixpoint visit_preds (dom : Z) (ps work visited : list Z) : cres (list Z * list Z) :=
  match ps with
  | [] => CGood (work, visited)
  | p :: rest =>
    if mem_z p visited || (id p <? id dom) then visit_preds dom rest work visited
    else if strict && negb (dominates (an_order an) (an_num an) dom p) then CUndef UBAssert
    else visit_preds dom rest (p :: work) (p :: visited)
  end.

(* vm/method-verifier.cpp:713-728. *)
Fixpoint loop_blocks (fuel : nat) (dom : Z) (work visited : list Z) : cres (list Z) :=
  match fuel with
  | O => CLoop
  | S f =>
    match work with
    | [] => CGood visited
    | b :: w => cbind (visit_preds dom (preds b) w visited) (fun x => loop_blocks f dom (fst x) (snd x))
    end
  end.

(* vm/method-verifier.cpp:689-733 DetectCompilerBreakBug. *)
Definition break_bug (fuel : nat) (b : Z) : cres bool :=
  match an_idom an b with
  | None => CUndef UBMem
  | Some d =>
    cbind (up_to_header fuel d) (fun dom =>
    if mem_z dom (an_headers an) then
      let first := rev (filter (fun p => id dom <=? id p) (preds dom)) in
      cbind (loop_blocks fuel dom first first) (fun visited => CGood (negb (mem_z b visited)))
    else CGood false)
  end.

(* vm/method-verifier.cpp:735-756 verifyJoin; [cur] is block_; [true]: block_ was marked as having the
   compiler's break bug. *)
Definition verify_join (fuel : nat) (cur : Z) (first other : vdata) : cres bool :=
  if negb (vd_stack first =? vd_stack other) then CBad INSTRUCTION_PARAM
  else if negb (Nat.eqb (length (vd_tracker first)) (length (vd_tracker other))) then
    cbind (break_bug fuel cur) (fun bug => if bug then CGood true else CBad INSTRUCTION_PARAM)
  else if negb (vd_scope first =? vd_scope other) then CBad INSTRUCTION_PARAM
  else CGood false.

(* vm/method-verifier.cpp:758-823 mergeTracker, for block_; the flag is has_compiler_break_bug. *)
Definition merge_tracker (fuel : nat) (b : Z) (bug : bool) (join other : vdata) : cres (bool * vdata) :=
  cbind (verify_join fuel b join other) (fun found =>
  let bug := bug || found in
  if v_scopes env then CGood (bug, join)
  else if bug then CGood (bug, join)
  else cbind (merge_loop (vd_tracker join) (vd_tracker other) [] (vd_heap join)) (fun x =>
       CGood (bug, set_heap (snd x) (set_tracker (fst x) join)))).

Record vstate := mkVs {
  vs_data : Z -> vdata;              (* block->data<VerifyData>() *)
  vs_entry : Z -> option vdata;      (* its entry *)
  vs_max : Z;                        (* max_stack_ *)
  vs_later : list Z;                 (* verify_joins_ *)
  vs_bug : list Z }.                 (* blocks with has_compiler_break_bug *)

(* vm/method-verifier.cpp:833-859: the loop of handleJoins.  [found]: the data inherited so far. *)
Fixpoint join_preds (fuel : nat) (data : Z -> vdata) (b : Z) (ps : list Z) (later bug : bool) (found : option vdata)
    (entry : option vdata) : cres (bool * bool * option vdata * option vdata) :=
  match ps with
  | [] => CGood (later, bug, found, entry)
  | p :: rest =>
    if id b <=? id p then join_preds fuel data b rest true bug found entry
    else match found with
    | None => join_preds fuel data b rest later bug (Some (data p)) (Some (data p))
    | Some d => cbind (merge_tracker fuel b bug d (data p)) (fun x =>
                join_preds fuel data b rest later (fst x) (Some (snd x)) entry)
    end
  end.

(* vm/method-verifier.cpp:825-873 handleJoins for the block [b]. *)
Definition handle_joins (fuel : nat) (b : Z) (st : vstate) : cres vstate :=
  cbind (join_preds fuel (vs_data st) b (preds b) false (mem_z b (vs_bug st)) None None) (fun r =>
  let '(later, bug, found, entry) := r in
  CGood (mkVs (match found with Some d => upd (vs_data st) b d | None => vs_data st end)
              (match found with Some _ => upd (vs_entry st) b entry | None => vs_entry st end)
              (vs_max st)
              (if later then vs_later st ++ [b] else vs_later st)
              (if bug then b :: vs_bug st else vs_bug st))).

(* Block::end(). *)
Definition end_of (b : Z) : Z :=
  match find (fun e => fst e =? b) (g_ends g) with Some (_, e) => e | None => 0 end.

Variable args : Z.
Variable sizes : list Z.

(* vm/method-verifier.cpp:81-96: the blocks in reverse postorder. *)
Fixpoint verify_blocks (fuel : nat) (bs : list Z) (st : vstate) : cres vstate :=
  match bs with
  | [] => CGood st
  | b :: rest =>
    cbind (handle_joins fuel b st) (fun st =>
    cbind (verify_insns env args sizes fuel (end_of b) None b (vs_data st b, vs_max st)) (fun x =>
    verify_blocks fuel rest (mkVs (upd (vs_data st) b (fst x)) (vs_entry st) (snd x) (vs_later st) (vs_bug st))))
  end.

(* vm/method-verifier.cpp:880-886: the loop of verifyJoins. *)
Fixpoint join_again (fuel : nat) (cur : Z) (data : Z -> vdata) (entry : vdata) (ps : list Z) : cres unit :=
  match ps with
  | [] => CGood tt
  | p :: rest => cbind (verify_join fuel cur entry (data p)) (fun _ => join_again fuel cur data entry rest)
  end.

(* vm/method-verifier.cpp:99-102, 875-888: the blocks to verify later; block_ is still the last block [cur]. *)
Fixpoint verify_later (fuel : nat) (cur : Z) (st : vstate) (bs : list Z) : cres unit :=
  match bs with
  | [] => CGood tt
  | b :: rest =>
    cbind (match preds b with
           | [] => CGood tt
           | ps => match vs_entry st b with
                   | None => CUndef UBMem
                   | Some e => join_again fuel cur (vs_data st) e ps
                   end
           end) (fun _ => verify_later fuel cur st rest)
  end.

(* vm/method-verifier.cpp:79-108: the whole graph; the result is max_stack_ in bytes. *)
Definition verify_graph (fuel : nat) (max : Z) : cres Z :=
  cbind (verify_blocks fuel (an_rpo an) (mkVs (fun _ => vd0) (fun _ => None) max [] [])) (fun st =>
  cbind (verify_later fuel (last (an_rpo an) 0) st (vs_later st)) (fun _ =>
  if INT_MAX4 <? vs_max st then CBad STACKLOW else CGood (vs_max st * 4))).
End Blocks.

(* --- The typed stack --- *)

(* The offset of the parser after SkipNextType, whose result verifyLocalSlots ignores (vm/rtti.cpp:57-104);
   [None]: the assertion of its default case, when compiled in. *)
Fixpoint skip_to (strict : bool) (fuel : nat) (t : list Z) (o : Z) : option Z :=
  match fuel with
  | O => Some o
  | S n =>
    match getb t o with
    | None => Some o
    | Some b0 =>
      match (if (b0 =? kByRef) || (b0 =? kConst) then option_map (fun b => (b, o + 2)) (getb t (o + 1)) else Some (b0, o + 1)) with
      | None => Some (o + 1)
      | Some (b, o) =>
        let after_uint o := match ReadCompactUint32 t o with Got v o' => (v, o') | Bad _ => (None, o) end in
        if is_simple b || (b =? kVoid) then Some o
        else if b =? kFixedArray then
          match after_uint o with (Some _, o') => skip_to strict n t o' | (None, o') => Some o' end
        else if b =? kArray then skip_to strict n t o
        else if existsb (Z.eqb b) [kEnum; kTypeset; kEnumStruct; kFunctionPtr] then Some (snd (after_uint o))
        else if strict then None else Some o
      end
    end
  end.

(* Outcome of verifyLocalSlots: the slot sizes; [None]: it returned false without reporting an error. *)
(* vm/method-verifier.cpp:1113-1157: the loop over [n] slots. *)
Fixpoint local_sizes (strict : bool) (t : list Z) (n : nat) (o : Z) : cres (option (list Z)) :=
  match n with
  | O => CGood (Some [])
  | S n' =>
    match getb t o with
    | None => CGood None
    | Some b0 =>
      match (if b0 =? kConst then option_map (fun b => (b, o + 1)) (getb t (o + 1)) else Some (b0, o)) with
      | None => CGood None
      | Some (b, o) =>
        let size :=
          if existsb (Z.eqb b) [kBool; kInt32; kFloat32; kChar8; kAny; kTopFunction; kEnum; kFixedArray; kArray;
                                kEnumStruct; kFunctionPtr; kTypeset] then Some 4
          else if b =? kInt64 then Some 8 else None in
        match size with
        | None => CBad FILE_FORMAT
        | Some s =>
          match skip_to strict (fuel_for t) t o with
          | None => CUndef UBAssert
          | Some o' => cbind (local_sizes strict t n' o') (fun r => CGood (option_map (cons s) r))
          end
        end
      end
    end
  end.

(* vm/method-verifier.cpp:1089-1159 verifyLocalSlots: arg_count_ and local_sizes_. *)
Definition verify_local_slots (strict : bool) (method : option (list Z * mrow)) : cres (option (Z * list Z)) :=
  match method with
  | None => CBad FILE_FORMAT
  | Some (t, r) =>
    match ReadFunctionSignatureArgCount t (m_sig r) with
    | Got (Some args) _ =>
      if m_locals r =? 0 then CGood (Some (args, []))
      else match ReadLocalSlotCount t (m_locals r) with
           | Got (Some n) o => cbind (local_sizes strict t (Z.to_nat n) o) (fun l => CGood (option_map (pair args) l))
           | _ => CBad FILE_FORMAT
           end
    | _ => CBad FILE_FORMAT
    end
  end.

(* vm/smx-image.cpp:953-965 GetMethodRttiByOffset. *)
Definition method_row (rows : list mrow) (o : Z) : option mrow :=
  find (fun r => (m_start r <=? o) && (o <? m_end r)) rows.

(* --- The method --- *)
Record vinfo := mkVinfo { vi_pre : pre; vi_graph : graph; vi_an : analysis; vi_max : Z; vi_sizes : list Z }.

(* vm/method-verifier.cpp:51-111 verify for the method at byte offset [o].  [CGood None]: null without an
   error having been reported. *)
Definition verify (strict : bool) (rounds fuel : nat) (env : venv) (o : Z) : cres (option vinfo) :=
  if negb (o mod 4 =? 0) then CBad INVALID_ADDRESS
  else
    cbind (match v_rtti env with
           | None => CGood None
           | Some (t, rows) =>
             match method_row rows o with
             | None => CBad INVALID_ADDRESS
             | Some r => if m_start r =? o then CGood (Some (t, r)) else CBad INVALID_ADDRESS
             end
           end) (fun method =>
    cbind (if v_typed env then verify_local_slots strict method else CGood (Some (0, []))) (fun slots =>
    match slots with
    | None => CGood None
    | Some (args, sizes) =>
      cbind (build strict rounds fuel (v_code env) (o / 4)) (fun x =>
      let '(pr, g, an) := x in
      cbind (verify_graph strict env g an args sizes fuel (fold_left Z.add sizes 0)) (fun max =>
      CGood (Some (mkVinfo pr g an max sizes))))
    end)).

(* vm/method-info.cpp:57-66 BuildLocalOffsetTable. *)
Fixpoint local_table (sizes : list Z) (offset : Z) : list Z :=
  match sizes with [] => [] | s :: rest => offset - s :: local_table rest (offset - s) end.

(* vm/method-info.h:39-44 Validate with vm/method-info.cpp:42-55 InternalValidate: the method is run unless an
   error was reported. *)
Definition validate_method (strict : bool) (rounds fuel : nat) (env : venv) (o : Z) : cres meth :=
  cbind (verify strict rounds fuel env o) (fun r =>
  CGood (mkMeth (v_typed env) (match r with Some v => local_table (vi_sizes v) 0 | None => [] end))).
