(* Error reports and exception-handling scopes: vm/environment.cpp:348-530, include/sp_vm_api.h:938-990.
   A handler is represented by its catch flag, the innermost first; [strict] says whether assertions
   are compiled in.  The debugger's callbacks are not modelled; a message is a byte list and is not
   truncated to the 1023 bytes kept. *)
From Verif Require Import Base Rt_Model.

Record env := mkEnv { handlers : list bool; exception_code : Z; exception_message : list Z }.
Definition SP_ERROR_NONE : Z := 0.
Definition hasPendingException (e : env) : bool := negb (exception_code e =? SP_ERROR_NONE).
Definition clearPendingException (e : env) : env := mkEnv (handlers e) SP_ERROR_NONE (exception_message e).

(* Results: a value and the new state, or a failed assertion. *)
Definition EM (A : Type) := env -> option (A * env).
Definition check (strict : bool) (c : bool) (e : env) : bool := negb strict || c.

(* DispatchReport, vm/environment.cpp:433-455. *)
Definition DispatchReport (strict : bool) (code : Z) (msg : list Z) (e : env) : option env :=
  if check strict (negb (hasPendingException e)) e then
    Some (match handlers e with [] => e | _ => mkEnv (handlers e) code msg end)
  else None.

(* 457-474. *)
Definition EnterScope (e : env) : env := mkEnv (true :: handlers e) (exception_code e) (exception_message e).
Definition LeaveScope (e : env) : env :=
  match handlers e with
  | [] => e     (* excluded by assert(handler == eh_top_): a handler being destroyed was entered *)
  | c :: rest =>
    mkEnv rest (match rest with [] => SP_ERROR_NONE | _ => if c then SP_ERROR_NONE else exception_code e end) (exception_message e)
  end.
(* ExceptionHandler::Rethrow, include/sp_vm_api.h:962-965. *)
Definition Rethrow (strict : bool) (e : env) : option env :=
  match handlers e with
  | [] => Some e
  | c :: rest => if check strict (c && hasPendingException e) e then Some (mkEnv (false :: rest) (exception_code e) (exception_message e)) else None
  end.
(* HasException, Code and Message of the innermost handler, 476-505. *)
Definition Seen (e : env) : option (Z * list Z) :=
  if hasPendingException e then Some (exception_code e, exception_message e) else None.

(* Host code as it uses these: reports an error and returns; opens a scope around other code, looks at
   what it caught, and may pass it on; calls a function through Execute (vm/scripted-invoker.cpp:233-256),
   which clears the pending error, opens a scope, and returns the error code; or calls it with Invoke,
   whose entry clears the pending error too (vm/plugin-runtime.cpp:760).  Code that reported or passed on
   an error returns to the nearest scope at once. *)
Inductive host :=
| Report (code : Z) (msg : list Z)
| Scope (body : list host) (pass_on : bool)
| Execute (body : list host)
| InvokeFn (body : list host).

(* Running host code: what the scopes saw, in order of leaving them, the state, and whether it stopped
   because of an error. *)
Record out := mkOut { seen : list (option (Z * list Z)); o_env : env; stopped : bool }.
Fixpoint run1 (strict : bool) (h : host) (e : env) {struct h} : option out :=
  let fix runs (hs : list host) (e : env) {struct hs} : option out :=
    match hs with
    | [] => Some (mkOut [] e false)
    | h :: rest =>
      match run1 strict h e with
      | None => None
      | Some o => if stopped o then Some o
                  else match runs rest (o_env o) with
                       | None => None
                       | Some o' => Some (mkOut (seen o ++ seen o') (o_env o') (stopped o'))
                       end
      end
    end in
  match h with
  | Report code msg =>
    match DispatchReport strict code msg e with None => None | Some e' => Some (mkOut [] e' true) end
  | Scope body pass_on =>
    match runs body (EnterScope e) with
    | None => None
    | Some o =>
      let caught := Seen (o_env o) in
      let again := pass_on && hasPendingException (o_env o) in
      match (if again then Rethrow strict (o_env o) else Some (o_env o)) with
      | None => None
      | Some e' => Some (mkOut (seen o ++ [caught]) (LeaveScope e') again)
      end
    end
  | Execute body =>
    match runs body (clearPendingException (EnterScope (clearPendingException e))) with
    | None => None
    | Some o => Some (mkOut (seen o ++ [Seen (o_env o)]) (LeaveScope (o_env o)) false)
    end
  | InvokeFn body => runs body (clearPendingException e)
  end.
Fixpoint run (strict : bool) (hs : list host) (e : env) : option out :=
  match hs with
  | [] => Some (mkOut [] e false)
  | h :: rest =>
    match run1 strict h e with
    | None => None
    | Some o => if stopped o then Some o
                else match run strict rest (o_env o) with
                     | None => None
                     | Some o' => Some (mkOut (seen o ++ seen o') (o_env o') (stopped o'))
                     end
    end
  end.
