(* The host's view of a plugin's functions and natives: vm/plugin-runtime.cpp:293-490,
   vm/smx-image.cpp:789-835, vm/runtime-helpers.cpp:66-73.  Names are byte lists.  A ScriptedInvoker
   is represented by the order in which it was created; allocation does not fail. *)
From Verif Require Import Base.

(* vm/plugin-runtime.h:37-42 and include/sp_vm_types.h:175-195. *)
Inductive fn := Legacy (id : Z) | Callback (id : Z).
Record native := mkNative { n_fn : option fn; n_bound : bool; n_flags : Z; n_user : Z }.

(* A ScriptedInvoker: the id it reports and the public it was made for. *)
Record invoker := mkInvoker { i_fnid : Z; i_public : Z }.

(* [publics]: names; [entrypoints_]: the object made for a public, if any; [objects]: all objects made. *)
Record plugin := mkPlugin {
  publics : list (list Z);
  entrypoints : list (option nat);
  objects : list invoker;
  natives : list native
}.
(* vm/plugin-runtime.cpp:97-118. *)
Definition loaded (names : list (list Z)) (nnatives : nat) : plugin :=
  mkPlugin names (repeat None (length names)) [] (repeat (mkNative None false 0 0) nnatives).
Definition num_publics (p : plugin) : Z := Z.of_nat (length (publics p)).
Definition num_natives (p : plugin) : Z := Z.of_nat (length (natives p)).

Fixpoint set_nth {A} (l : list A) (k : nat) (v : A) : list A :=
  match l, k with [], _ => [] | _ :: t, O => v :: t | x :: t, S k' => x :: set_nth t k' v end.
Fixpoint name_eqb (a b : list Z) : bool :=
  match a, b with [], [] => true | x :: a', y :: b' => (x =? y) && name_eqb a' b' | _, _ => false end.

(* (index << 1) | 1 in 32 bits, vm/plugin-runtime.cpp:448 and 465. *)
Definition make_id (index : Z) : Z := Z.lor (u32 (index * 2)) 1.

(* The entry point of a public, made on first use: 446-450 and 462-468. *)
Definition entry (p : plugin) (index : Z) : option nat * plugin :=
  match nth (Z.to_nat index) (entrypoints p) None with
  | Some o => (Some o, p)
  | None => let o := length (objects p) in
            (Some o, mkPlugin (publics p) (set_nth (entrypoints p) (Z.to_nat index) (Some o))
                              (objects p ++ [mkInvoker (make_id index) index]) (natives p))
  end.

(* GetFunctionById, vm/plugin-runtime.cpp:437-456; [id] is uint32_t. *)
Definition GetFunctionById (p : plugin) (id : Z) : option nat * plugin :=
  if Z.land id 1 =? 0 then (None, p)
  else if id / 2 >=? num_publics p then (None, p)
  else entry p (id / 2).

(* FindPublic, vm/smx-image.cpp:818-835: a later public of the same name replaces an earlier one. *)
Fixpoint find_public (names : list (list Z)) (i : Z) (name : list Z) (found : option Z) : option Z :=
  match names with
  | [] => found
  | n :: rest => find_public rest (i + 1) name (if name_eqb n name then Some i else found)
  end.
(* GetFunctionByName, vm/plugin-runtime.cpp:474-482. *)
Definition GetFunctionByName (p : plugin) (name : list Z) : option nat * plugin :=
  match find_public (publics p) 0 name None with None => (None, p) | Some i => entry p i end.

(* GetPublicByIndex, vm/plugin-runtime.cpp:369-385: the id reported, or SP_ERROR_INDEX. *)
Definition GetPublicByIndex (p : plugin) (index : Z) : option Z :=
  if index >=? num_publics p then None else Some (make_id index).

(* Calls the host makes, and what it is told about the object it gets. *)
Inductive call := ById (id : Z) | ByName (name : list Z).
Definition answer (p : plugin) (c : call) : option nat * plugin :=
  match c with ById id => GetFunctionById p id | ByName n => GetFunctionByName p n end.
Fixpoint answers (p : plugin) (cs : list call) : list (option nat) * plugin :=
  match cs with
  | [] => ([], p)
  | c :: rest => let '(r, p1) := answer p c in let '(rs, p2) := answers p1 rest in (r :: rs, p2)
  end.
(* GetFunctionID, vm/scripted-invoker.cpp:262. *)
Definition id_of (p : plugin) (o : nat) : Z := i_fnid (nth o (objects p) (mkInvoker 0 0)).

(* ---- Natives ---- *)
Definition SP_NTVFLAG_OPTIONAL : Z := 1.
Definition SP_NTVFLAG_EPHEMERAL : Z := 2.
Inductive bind_result := BindOk | BindIndex | BindParam.

(* UpdateNativeBinding and UpdateNativeBindingObject, vm/plugin-runtime.cpp:293-340; [None] is a null
   function or object. *)
Definition UpdateNativeBinding (p : plugin) (index : Z) (f : option fn) (flags user : Z) : bind_result * plugin :=
  if index >=? num_natives p then (BindIndex, p)
  else
    let n := nth (Z.to_nat index) (natives p) (mkNative None false 0 0) in
    if n_bound n && (Z.land (n_flags n) (Z.lor SP_NTVFLAG_OPTIONAL SP_NTVFLAG_EPHEMERAL) =? 0) then (BindParam, p)
    else
      let n' := mkNative f (match f with Some _ => true | None => false end) flags user in
      (BindOk, mkPlugin (publics p) (entrypoints p) (objects p) (set_nth (natives p) (Z.to_nat index) n')).

(* Interpreter::invokeNative and NativeInvokeThunk: the function reached, or SP_ERROR_INVALID_NATIVE. *)
Definition call_native (p : plugin) (index : Z) : option fn :=
  let n := nth (Z.to_nat index) (natives p) (mkNative None false 0 0) in
  if n_bound n then n_fn n else None.

Record request := mkRequest { r_index : Z; r_fn : option fn; r_flags : Z; r_user : Z }.
Fixpoint bind_all (p : plugin) (rs : list request) : list bind_result * plugin :=
  match rs with
  | [] => ([], p)
  | r :: rest =>
    let '(x, p1) := UpdateNativeBinding p (r_index r) (r_fn r) (r_flags r) (r_user r) in
    let '(xs, p2) := bind_all p1 rest in (x :: xs, p2)
  end.
