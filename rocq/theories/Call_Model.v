(* Calling a plugin function from the host: include/sp_callable.h, vm/scripted-invoker.cpp:107-231,
   vm/plugin-runtime.cpp:727-797.  The callee is any computation on the host state.  Host memory is a set
   of numbered objects holding bytes; a pointer argument names an object.  The profiler, the crash-dump
   copy of the function's name and the debugger are not modelled. *)
From Verif Require Import Base Rt_Model Str_Model Exc_Model.

(* include/sp_vm_types.h:71-104. *)
Definition err_code (e : err) : Z :=
  match e with
  | FILE_FORMAT => 1 | HEAPLOW => 3 | PARAM => 4 | INVALID_ADDRESS => 5 | NOT_FOUND => 6 | STACKLOW => 8 | INVALID_INSTRUCTION => 10
  | STACKMIN => 12 | HEAPMIN => 13 | DIVIDE_BY_ZERO => 14 | ARRAY_BOUNDS => 15 | INSTRUCTION_PARAM => 16
  | ARRAY_TOO_BIG => 19 | TRACKER_BOUNDS => 20 | INVALID_NATIVE => 21 | PARAMS_MAX => 22 | NATIVE_ERR => 23
  | NOT_RUNNABLE => 24 | INTEGER_OVERFLOW => 29 | TIMEOUT => 30 | INVALID_ARRAY_SIZE => 33
  end.

Record hst := mkHst { h_rt : rt; h_env : env; h_obj : nat -> list Z }.
Definition set_rt s h := mkHst s (h_env h) (h_obj h).
Definition set_env e h := mkHst (h_rt h) e (h_obj h).
Definition set_obj o b h := mkHst (h_rt h) (h_env h) (fun k => if Nat.eqb k o then b else h_obj h k).
Notation HM A := (hst -> res hst A).

(* Environment::ReportError(int), vm/environment.cpp:327-336; the message is a function of the code. *)
Definition report (strict : bool) (e : err) : HM unit := fun h =>
  match DispatchReport strict (err_code e) [] (h_env h) with
  | Some e' => Ok tt (set_env e' h)
  | None => UB UBAssert
  end.
(* A runtime operation that reports its error and returns failure. *)
Definition try_rt {A} (strict : bool) (m : RM A) : HM (option A) := fun h =>
  match m (h_rt h) with
  | Ok a s => Ok (Some a) (set_rt s h)
  | Fail e s => (report strict e;;; ret None) (set_rt s h)
  | UB u => UB u
  end.
(* One whose error is returned and not looked at. *)
Definition ignore_rt {A} (m : RM A) : HM unit := fun h =>
  match m (h_rt h) with Ok _ s | Fail _ s => Ok tt (set_rt s h) | UB u => UB u end.
Definition pending : HM bool := fun h => Ok (hasPendingException (h_env h)) h.
Definition hassert (strict : bool) (c : bool) : HM unit := if negb strict || c then ret tt else undef UBAssert.

(* What PluginRuntime::Invoke asks before it runs anything. *)
Record target := mkTarget { timed_out : bool; known : bool; paused : bool; has_method : bool }.

Fixpoint put_params (a : Z) (ps : list Z) : RM unit :=
  match ps with [] => ret tt | p :: rest => wr32 a p;;; put_params (a + 4) rest end.

(* PluginRuntime::Invoke, vm/plugin-runtime.cpp:727-797. *)
Definition RtInvoke (strict : bool) (t : target) (callee : HM bool) (params : list Z) : HM bool := fun h =>
  let n := Z.of_nat (length params) in
  let s := h_rt h in
  if timed_out t then (report strict TIMEOUT;;; ret false) h
  else if negb (known t) then (report strict NOT_FOUND;;; ret false) h
  else if paused t then (report strict NOT_RUNNABLE;;; ret false) h
  else if wrap32 (hp s + 64) >? wrap32 (sp s - 4 * (n + 1)) then (report strict STACKLOW;;; ret false) h
  else
    let h := set_env (clearPendingException (h_env h)) h in
    if negb (has_method t) then (report strict INVALID_ADDRESS;;; ret false) h
    else
      match (put (set_sp (wrap32 (sp s - 4 * (n + 1))));;; a <- get sp;; wr32 a n;;; put_params (a + 4) params) s with
      | Ok _ s1 =>
        match callee (set_rt s1 h) with
        | Ok ok h2 => Ok ok (set_rt (set_sp (sp s) (set_hp (hp s) (set_frm (frm s) (set_hp_scope (hp_scope s) (h_rt h2))))) h2)
        | Fail e h2 => Fail e h2
        | UB u => UB u
        end
      | Fail e s1 => Fail e (set_rt s1 h)
      | UB u => UB u
      end.

(* ---- Arguments: include/sp_callable.h ---- *)
Inductive arg :=
| ACell (v : Z)                              (* PushCell, PushFloat *)
| ARef (o : nat) (copyback : bool)           (* PushCellByRef, PushFloatByRef *)
| AArray (o : nat) (cells : Z) (copyback : bool)
| AStr (o : nat) (size : Z) (copy utf8 binary copyback : bool)
| AInt64 (v : Z).                            (* PushInt64 stores the value where a pointer is expected *)
Record callargs := mkArgs { argv : list arg; error : bool }.
Definition SP_MAX_EXEC_PARAMS : nat := 32.
Definition no_args : callargs := mkArgs [] false.
Definition push (c : callargs) (a : arg) : callargs :=
  if (SP_MAX_EXEC_PARAMS <=? length (argv c))%nat then mkArgs (argv c) true else mkArgs (argv c ++ [a]) (error c).
Definition copies_back (a : arg) : bool :=
  match a with ACell _ | AInt64 _ => false | ARef _ b | AArray _ _ b | AStr _ _ _ _ _ b => b end.

(* strlen over an object: reading past its end is an error. *)
Fixpoint c_str (bytes : list Z) : option (list Z) :=
  match bytes with
  | [] => None
  | b :: rest => if b =? 0 then Some [] else match c_str rest with Some t => Some (b :: t) | None => None end
  end.
(* memcpy(memory_ + a, object, n). *)
Definition from_host (o : nat) (n a : Z) : HM unit := fun h =>
  if n <=? Z.of_nat (length (h_obj h o)) then
    match copy_in a (firstn (Z.to_nat n) (h_obj h o)) (h_rt h) with Ok _ s => Ok tt (set_rt s h) | Fail e s => Fail e (set_rt s h) | UB u => UB u end
  else UB UBMem.
(* memcpy(object, memory_ + a, n). *)
Definition read_bytes (m : memory) (a : Z) (n : nat) : list Z := map (fun i => m (a + Z.of_nat i)) (seq 0 n).
Definition to_host (o : nat) (n a : Z) : HM unit := fun h =>
  if (n <=? Z.of_nat (length (h_obj h o))) && in_mem (h_rt h) a n then
    Ok tt (set_obj o (read_bytes (mem (h_rt h)) a (Z.to_nat n) ++ skipn (Z.to_nat n) (h_obj h o)) h)
  else UB UBMem.

(* One turn of the loop in ScriptedInvoker::Invoke, vm/scripted-invoker.cpp:129-196: the parameter. *)
Definition place (strict : bool) (a : arg) : HM (option Z) :=
  match a with
  | ACell v => ret (Some v)
  | ARef o _ =>
    r <- try_rt strict (heapAlloc 4);;
    match r with None => ret None | Some p => from_host o 4 p;;; ret (Some p) end
  | AInt64 _ =>
    r <- try_rt strict (heapAlloc 8);;
    match r with None => ret None | Some p => undef UBMem end
  | AArray o cells _ =>
    r <- try_rt strict (AllocArray cells);;
    match r with None => ret None | Some p => from_host o (cells * 4) p;;; ret (Some p) end
  | AStr o size copy utf8 binary _ =>
    r <- try_rt strict (AllocArray ((size + 3) / 4));;
    match r with
    | None => ret None
    | Some p =>
      if copy then
        if utf8 then fun h =>
          match c_str (h_obj h o) with
          | Some t => (ignore_rt (StringToLocalUTF8 p size t);;; ret (Some p)) h
          | None => UB UBMem
          end
        else if binary then from_host o size p;;; ret (Some p)
        else fun h =>
          match c_str (h_obj h o) with
          | Some t => (ignore_rt (StringToLocal p size t);;; ret (Some p)) h
          | None => UB UBMem
          end
      else ignore_rt (wr32 p 0);;; ret (Some p)
    end
  end.
Fixpoint place_all (strict : bool) (args : list arg) : HM (option (list Z)) :=
  match args with
  | [] => ret (Some [])
  | a :: rest =>
    p <- place strict a;;
    match p with
    | None => ret None
    | Some p => ps <- place_all strict rest;; match ps with None => ret None | Some ps => ret (Some (p :: ps)) end
    end
  end.
(* 210-230. *)
Definition arg_bytes (a : arg) : Z :=
  match a with ACell _ => 0 | ARef _ _ => 4 | AArray _ n _ => n * 4 | AStr _ n _ _ _ _ => n | AInt64 _ => 8 end.
Definition arg_obj (a : arg) : nat := match a with ACell _ | AInt64 _ => 0%nat | ARef o _ | AArray o _ _ | AStr o _ _ _ _ _ => o end.
Fixpoint copy_back (args : list arg) (ps : list Z) : HM unit :=
  match args, ps with
  | a :: args', p :: ps' => (if copies_back a then to_host (arg_obj a) (arg_bytes a) p else ret tt);;; copy_back args' ps'
  | _, _ => ret tt
  end.

(* ScriptedInvoker::Invoke(const CallArgs&, cell_t* ), 107-231. *)
Definition Invoke (strict : bool) (t : target) (callee : HM bool) (c : callargs) : HM bool :=
  was <- pending;; hassert strict (negb was);;;
  if paused t then report strict NOT_RUNNABLE;;; ret false
  else if error c then report strict PARAMS_MAX;;; ret false
  else
    try_rt strict enterHeapScope;;;
    result <- (ps <- place_all strict (argv c);;
               match ps with
               | None => ret false
               | Some ps =>
                 ok <- RtInvoke strict t callee ps;;
                 if negb ok then ret false
                 else was <- pending;; hassert strict (negb was);;; copy_back (argv c) ps;;; was <- pending;; ret (negb was)
               end);;
    try_rt strict leaveHeapScope;;;
    ret result.
