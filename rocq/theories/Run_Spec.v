(* What whole runs of verified programs are, and what they rely on besides the verifier. *)
From Verif Require Import Base Rtti_Model Rtti_Spec Rt_Model Array_Model Interp_Model Rt_Spec Mem_Spec Cfg_Model Cfg_Spec Dom_Model
  Ver_Model Ver_Spec.

(* Every method the engine enters was accepted by the verifier (with no negative case count), and runs with the slot table
   the verifier built for it. *)
Record verified (env : venv) (p : prog) : Prop := {
  vf_code : p_code p = v_code env;
  vf_ok : code_ok (v_code env);
  vf_method : forall o mi, p_validate p o = inl mi ->
    0 <= o /\ counts_ok (v_code env) (o / 4) /\ - two31 <= StackSizeForLocalSlots mi /\
    exists strict rounds fuel v, verify strict rounds fuel env o = CGood (Some v) /\
      mi = mkMeth (v_typed env) (local_table (vi_sizes v) 0);
  vf_natives : forall n, 0 <= n < v_natives env -> p_natives p n <> None
}.

(* No instruction asks for a gigabyte of heap at once. *)
Definition small_heap (env : venv) : Prop := forall pc n, decode (v_code env) pc = Some (HEAP n) -> n < 1073741824.

(* The number of stack cells a float instruction takes. *)
Definition arity (f : fstack) : Z := match f with FABS | FLOAT | FUN _ => 1 | FBIN _ => 2 end.

(* The host's functions keep to the plugin's memory, return cells and leave the script's frame as it was; a native is
   replaced by a float instruction only if it is called with that instruction's operands.  Floats are cells too. *)
Record host_ok (env : venv) (p : prog) (fe : fenv) : Prop := {
  ho_good : good_natives (p_natives p);
  ho_result : forall n nt f s v s', p_natives p n = Some nt -> n_fn nt = Some f -> f s = Ok v s' ->
    is_i32 v /\ frm s' = frm s;
  ho_replaced : forall pc n nt k f, decode (v_code env) pc = Some (SYSREQ_N n k) -> p_natives p n = Some nt ->
    n_repl nt = Some f -> k = arity f;
  ho_float : (forall n a, is_i32 a -> is_i32 (f1 fe n a)) /\ (forall n a b, is_i32 a -> is_i32 b -> is_i32 (f2 fe n a b)) /\
    (forall a, is_i32 a -> is_i32 (fcvt fe a)) /\ (forall n a b, is_i32 a -> is_i32 b -> is_i32 (fbin fe n a b)) /\
    (forall n a, is_i32 a -> is_i32 (fun1 fe n a))
}.

(* The state the host calls into: the memory the program was verified for, less than a gigabyte of it, and room for the
   arguments. *)
Definition ready (env : venv) (args : list Z) (r : rt) : Prop :=
  in_bounds r /\ pointers_ok r /\ mem_size r = v_mem env /\ data_size r = v_dat env /\ mem_size r <= 1073741760 /\
  Forall is_i32 args /\ hp r + 4 * (Z.of_nat (length args) + 1) <= sp r.

(* The frames of the activations, innermost first: where each is, and what its two lowest-lying bookkeeping cells held when
   it was entered: the caller's frame and the number of arguments. *)
Record frame := mkFrame { fr_at : Z; fr_caller : Z; fr_args : Z }.
Definition frame_of (s : rt) : frame := mkFrame (frm s) (load32 (mem s) (frm s + 4)) (load32 (mem s) (frm s + 8)).

(* What the engine relies on at the instruction about to be executed, without the verifier or a run-time check seeing to it. *)
Definition relies (env : venv) (c : config) (fs : list frame) : Prop :=
  let s := c_rt c in
  let a := c_cur c in
  let far o := v_typed env = false \/ o < 0 -> slot64_ok s (wrap32 (frm s + StackOffset (a_meth a) o)) in
  match decode (v_code env) (a_pc a) with
  | Some RETN => hd_error fs = Some (frame_of s)                 (* the frame's bookkeeping was not overwritten *)
  | Some HEAP_RESTORE => data_size s <= hp_scope s <= hp s       (* nor was the heap scope's *)
  | Some (GENARRAY _ _) => 64 <= sp s
  | Some (INITARRAY r _ _ _ _ _) =>
      match r with Pri => a_pri a | Alt => a_alt a end mod 4 = 0 /\ mem_size s mod 4 = 0 /\ data_size s mod 4 = 0
  | Some (CVT_I64 o) | Some (UN64 _ o) | Some (BIN64 _ o) | Some (STOR_S_C_I64 o _ _) | Some (STOR_S_PRI_I64 o) => far o
  | _ => True
  end.

Definition frames_after (env : venv) (c c' : config) (fs : list frame) : list frame :=
  match decode (v_code env) (a_pc (c_cur c)) with
  | Some (CALL _) => frame_of (c_rt c') :: fs
  | Some RETN => tl fs
  | _ => fs
  end.

(* The configurations a call from the host goes through, with their frames, as long as that holds. *)
Inductive monitored (env : venv) (fe : fenv) (p : prog) (t : config -> bool) (args : list Z) (r : rt)
  : config -> list frame -> Prop :=
| mon_start o mi b c : p_validate p o = inl mi -> start mi o args r = Next b c -> monitored env fe p t args r c [frame_of (c_rt c)]
| mon_step c fs b c' : monitored env fe p t args r c fs -> relies env c fs -> step false fe p t c = Next b c' ->
    monitored env fe p t args r c' (frames_after env c c' fs).
