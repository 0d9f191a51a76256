(* What C04 and C22 ask of a call from the host. *)
From Verif Require Import Base Rt_Model Rt_Spec Exc_Model Str_Spec Call_Model.

(* ---- C04 ---- *)
(* No error is pending. *)
Definition quiet (h : hst) : Prop := hasPendingException (h_env h) = false.
(* The same with an error pending, if anything is there to handle it. *)
Definition reports (h h' : hst) (e : err) : Prop :=
  h_rt h' = h_rt h /\ h_obj h' = h_obj h /\ handlers (h_env h') = handlers (h_env h) /\
  (handlers (h_env h) <> [] -> Seen (h_env h') = Some (err_code e, [])).
(* [s1] is [s] with the parameters and their count on top of the stack. *)
Definition delivered (params : list Z) (s s1 : rt) : Prop :=
  let n := Z.of_nat (length params) in
  same_plugin s s1 /\ sp s1 = sp s - 4 * (n + 1) /\ hp s1 = hp s /\ frm s1 = frm s /\ hp_scope s1 = hp_scope s /\
  load32 (mem s1) (sp s1) = n /\
  (forall i, (i < length params)%nat -> load32 (mem s1) (sp s1 + 4 * (Z.of_nat i + 1)) = nth i params 0) /\
  unchanged_outside s s1 (sp s1) (4 * (n + 1)).

(* ---- C22 ---- *)
(* What the host promises about an argument: the object is large enough, a string is terminated, and
   sizes are below the limit AllocArray asserts.  64-bit arguments are left out: see the refutation. *)
Definition small (n : Z) : Prop := 0 <= n < 536870911.
Definition proper (obj : nat -> list Z) (a : arg) : Prop :=
  match a with
  | ACell v => is_i32 v
  | ARef o _ => 4 <= Z.of_nat (length (obj o))
  | AArray o n _ => small n /\ n * 4 <= Z.of_nat (length (obj o))
  | AStr o n copy utf8 binary back =>
    0 < n /\ small (n + 3) /\
    (copy = true -> utf8 = true -> 2 <= n /\ exists chars, utf8_text chars /\ c_str (obj o) = Some (concat chars)) /\
    (copy = true -> utf8 = false -> binary = false -> exists t, c_str (obj o) = Some t) /\
    (copy = true -> utf8 = false -> binary = true -> n <= Z.of_nat (length (obj o))) /\
    (back = true -> n <= Z.of_nat (length (obj o)))
  | AInt64 _ => False
  end.
Definition bytes_at (m : memory) (a : Z) (l : list Z) : Prop := forall i, (i < length l)%nat -> m (a + Z.of_nat i) = nth i l 0.
(* What the callee finds at the parameter of a by-reference argument. *)
Definition shows (m : memory) (obj : nat -> list Z) (a : arg) (p : Z) : Prop :=
  match a with
  | ACell v => p = v
  | ARef o _ => bytes_at m p (firstn 4 (obj o))
  | AArray o n _ => bytes_at m p (firstn (Z.to_nat (n * 4)) (obj o))
  | AStr o n copy utf8 binary _ =>
    if copy then
      if utf8 then forall chars, utf8_text chars -> c_str (obj o) = Some (concat chars) ->
        exists text, longest_fit chars (n - 1) text /\ bytes_at m p (text ++ [0])
      else if binary then bytes_at m p (firstn (Z.to_nat n) (obj o))
      else forall t, c_str (obj o) = Some t -> bytes_at m p (firstn (Z.to_nat (n - 1)) t ++ [0])
    else m p = 0
  | AInt64 _ => False
  end.
(* By-reference arguments have memory of their own, between [lo] and [hi], one after another. *)
Inductive laid_out : Z -> list arg -> list Z -> Z -> Prop :=
| lay_nil lo hi : lo <= hi -> laid_out lo [] [] hi
| lay_cell lo v args ps hi : laid_out lo args ps hi -> laid_out lo (ACell v :: args) (v :: ps) hi
| lay_ref lo a p args ps hi : (forall v, a <> ACell v) -> lo <= p -> laid_out (p + arg_bytes a) args ps hi ->
    laid_out lo (a :: args) (p :: ps) hi.

(* Heap an argument takes: arrays and strings have a size cell in front. *)
Definition cost (a : arg) : Z :=
  match a with ACell _ => 0 | ARef _ _ => 4 | AArray _ n _ => 4 + 4 * n | AStr _ n _ _ _ _ => 4 + 4 * ((n + 3) / 4) | AInt64 _ => 8 end.
Fixpoint costs (args : list arg) : Z := match args with [] => 0 | a :: rest => cost a + costs rest end.

(* The objects after copy-back, arguments in order: those flagged get what the callee left. *)
Fixpoint copied_back (m : memory) (args : list arg) (ps : list Z) (obj : nat -> list Z) : nat -> list Z :=
  match args, ps with
  | a :: args', p :: ps' =>
    copied_back m args' ps'
      (if copies_back a then fun k => if Nat.eqb k (arg_obj a)
         then read_bytes m p (Z.to_nat (arg_bytes a)) ++ skipn (Z.to_nat (arg_bytes a)) (obj (arg_obj a)) else obj k
       else obj)
  | _, _ => obj
  end.

(* What the callee must leave alone for the call to end well: the block's shape, the sizes of the host's
   objects, the runtime's own heap-scope link (C01 says why a script can forge it), and it must not
   report success with an error pending. *)
Record proper_callee (h h2 : hst) (scope_at : Z) (ok : bool) : Prop := {
  pc_same : same_plugin (h_rt h) (h_rt h2);
  pc_link : load32 (mem (h_rt h2)) scope_at = hp_scope (h_rt h);
  pc_objs : forall o, (length (h_obj h o) <= length (h_obj h2 o))%nat;
  pc_quiet : ok = true -> quiet h2
}.
(* The function can be called with [n] parameters. *)
Definition ready (t : target) (s : rt) (n : Z) : Prop :=
  timed_out t = false /\ known t = true /\ paused t = false /\ has_method t = true /\ hp s + 64 + 4 * (n + 1) <= sp s.
(* The current heap scope is none or an address in the heap. *)
Definition scope_ok (s : rt) : Prop := hp_scope s = -1 \/ 0 <= hp_scope s < hp s.

(* The arguments fit: four bytes for the scope, the arguments, the 64 bytes always kept free, and the
   parameters with their count. *)
Definition callable (t : target) (s : rt) (args : list arg) : Prop :=
  timed_out t = false /\ known t = true /\ paused t = false /\ has_method t = true /\
  hp s + 4 + costs args + 64 + 4 * (Z.of_nat (length args) + 1) <= sp s.
(* The state in which the callee starts. *)
Definition called (h h1 : hst) (args : list arg) (ps : list Z) : Prop :=
  let s := h_rt h in let s1 := h_rt h1 in let n := Z.of_nat (length args) in
  same_plugin s s1 /\ sp s1 = sp s - 4 * (n + 1) /\ frm s1 = frm s /\ hp s1 + 64 <= sp s1 /\
  load32 (mem s1) (sp s1) = n /\ length ps = length args /\
  (forall i, (i < length ps)%nat -> load32 (mem s1) (sp s1 + 4 * (Z.of_nat i + 1)) = nth i ps 0) /\
  laid_out (hp s + 4) args ps (hp s1) /\ Forall2 (shows (mem s1) (h_obj h)) args ps /\
  (forall x, ~ in_gap s x -> mem s1 x = mem s x) /\ h_obj h1 = h_obj h /\ h_env h1 = h_env h.
(* The call was refused: an error is reported and nothing the caller can see has changed. *)
Definition refused (h h' : hst) : Prop :=
  exists e, regs_eq (h_rt h) (h_rt h') /\ same_plugin (h_rt h) (h_rt h') /\
    (forall x, ~ in_gap (h_rt h) x -> mem (h_rt h') x = mem (h_rt h) x) /\ h_obj h' = h_obj h /\
    handlers (h_env h') = handlers (h_env h) /\ (handlers (h_env h) <> [] -> Seen (h_env h') = Some (err_code e, [])).
(* The call returned: pointers as they were, the flagged objects as the callee left them in its memory. *)
Definition returned (h h2 h' : hst) (args : list arg) (ps : list Z) (ok : bool) : Prop :=
  regs_eq (h_rt h) (h_rt h') /\ same_plugin (h_rt h) (h_rt h') /\ mem (h_rt h') = mem (h_rt h2) /\ h_env h' = h_env h2 /\
  h_obj h' = if ok then copied_back (mem (h_rt h2)) args ps (h_obj h2) else h_obj h2.
