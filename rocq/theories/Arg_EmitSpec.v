(* What a call does up to the first instruction of the called function. *)
From Verif Require Import Base Rt_Model Rt_Spec Interp_Model Gen_Model Gen_Spec Arg_Emit.

(* What is passed: a value, or a cell by its address (an array by that of its first). *)
Inductive passed := PVal (v : Z) | PCell (x : loc).
Definition word (obase : nat -> Z) (p : passed) : Z := match p with PVal v => v | PCell x => adr obase x end.
Definition eval_arg (sc : scope) (a : arg) (st : store) : ev passed :=
  match a with
  | ByValue e => LET v @ st := eval sc e st IN Val (PVal v) st
  | ByRef l => LET x @ st := evloc sc l st IN Val (PCell x) st
  | Whole r => match aobj sc r with Some o => Val (PCell (o, 0)) st | None => Unspecified end
  | Temp e s => LET v @ st := eval sc e st IN
                match vloc sc (VLocal s) with Some x => Val (PCell x) (update st x v) | None => Unspecified end
  end.
(* The arguments are evaluated, the last one first. *)
Fixpoint eval_args (sc : scope) (es : list arg) (st : store) : ev (list passed) :=
  match es with
  | [] => Val [] st
  | e :: r => LET vs @ st := eval_args sc r st IN LET v @ st := eval_arg sc e st IN Val (v :: vs) st
  end.
Definition accepted_arg (a : arg) : Prop :=
  match a with ByValue e | Temp e _ => accepted e | ByRef l => accepted_l l | Whole _ => True end.
(* How much of the stack evaluating and pushing takes at most, in cells. *)
Definition arg_depth (a : arg) : Z := match a with ByValue e | Temp e _ => depth e | ByRef l => ldepth l | Whole _ => 0 end.
Fixpoint push_depth (es : list arg) : Z :=
  match es with [] => 0 | e :: r => Z.max (push_depth r) (Z.of_nat (length r) + Z.max 1 (arg_depth e)) end.

(* [r]: the machine when the called function [callee] starts, called with [vs] from a frame in use from [q] up. *)
Record called (M : machine) (callee : meth) (q : Z) (vs : list Z) (r : rt) : Prop := {
  (* the return address of the frame chain, the number of arguments and the arguments *)
  cd_frame : load32 (mem r) (frm r + 4) = frm (m_rt M);
  cd_count : load32 (mem r) (frm r + 8) = Z.of_nat (length vs);
  cd_args : forall i v, nth_error vs i = Some v -> load32 (mem r) (frm r + 12 + 4 * Z.of_nat i) = v;
  cd_end : frm r + 12 + 4 * Z.of_nat (length vs) = q;
  (* the i-th parameter, which the compiler gives the number -(i+1) (code-generator.cpp:1972), reads as the i-th argument *)
  cd_reads : typed callee = true -> forall i v, nth_error vs i = Some v ->
    getFrameValue (StackOffset callee (- (Z.of_nat i + 1))) r = Ok v r;
  (* the caller's heap top and heap scope are put away *)
  cd_plugin : same_plugin (m_rt M) r;
  cd_heap : hp r = hp (m_rt M) + 4;
  cd_gap : hp r <= sp r <= frm r;
  cd_saved : load32 (mem r) (frm r) = hp (m_rt M);
  cd_scope : load32 (mem r) (hp (m_rt M)) = hp_scope (m_rt M);
  (* below the frame, the function's locals *)
  cd_locals : sp r = frm r + StackSizeForLocalSlots callee;
  cd_scope_kept : hp_scope r = hp_scope (m_rt M)
}.
(* [r'] is a state the called function can be in: its frame, what is put away in it, and what is put away in the heap, are as
   they were. *)
Record in_call (M : machine) (r r' : rt) : Prop := {
  ic_plugin : same_plugin r r';
  ic_frame : frm r' = frm r;
  ic_heap : hp r <= hp r';
  ic_kept : bytes_kept r r' (frm r) 12;
  ic_scope : bytes_kept r r' (hp (m_rt M)) 4
}.

(* What a native is handed: the address, in the plugin's memory, of the number of arguments and the arguments. *)
Definition handed (s : rt) (vs : list Z) : Prop :=
  load32 (mem s) (sp s) = Z.of_nat (length vs) /\
  forall i v, nth_error vs i = Some v -> load32 (mem s) (sp s + 4 + 4 * Z.of_nat i) = v.

(* The limits of the plugin's memory while a function [callee], called with [n] arguments from [q], runs. *)
Definition callee_rt (s : rt) (callee : meth) (q : Z) (n : nat) : rt :=
  let frame := q - 4 * Z.of_nat n - 12 in set_sp (frame + StackSizeForLocalSlots callee) (set_frm frame (set_hp (hp s + 4) s)).
Definition callee_machine (M : machine) (callee : meth) (q : Z) (n : nat) : machine :=
  mkMachine (callee_rt (m_rt M) callee q n) callee (m_callers M) (m_prog M) (m_fe M) (m_tmo M).
(* The called function's own view of the variables, [sc'] at [obase']: what it reaches does not overlap what the call put away,
   and its reference and array parameters are those whose arguments are the addresses it takes them for. *)
Record own_view (M : machine) (callee : meth) (q : Z) (vs : list Z) (sc' : scope) (obase' : nat -> Z) : Prop := {
  ov_frame : forall o, 0 < olen sc' o -> apart (obase' o) (4 * olen sc' o) (q - 4 * Z.of_nat (length vs) - 12) 12;
  ov_scope : forall o, 0 < olen sc' o -> apart (obase' o) (4 * olen sc' o) (hp (m_rt M)) 4;
  ov_pointers : forall s x, pointer sc' obase' s x -> exists i, s = - (Z.of_nat i + 1) /\ nth_error vs i = Some x
}.
(* The values it starts with: of variables the caller also has, and of its parameters.  (Its locals have any.) *)
Definition call_starts (sc : scope) (obase : nat -> Z) (st : store) (sc' : scope) (obase' : nat -> Z) (q : Z) (vs : list Z) (st0 : store) : Prop :=
  (forall x y, live sc' x -> live sc y -> adr obase' x = adr obase y -> st0 x = st y) /\
  (forall x i v, live sc' x -> nth_error vs i = Some v -> adr obase' x = q - 4 * Z.of_nat (length vs) + 4 * Z.of_nat i -> st0 x = v).
(* The caller's variables afterwards: those the function shares as it left them, and the others as they were. *)
Definition call_ends (sc : scope) (obase : nat -> Z) (st : store) (sc' : scope) (obase' : nat -> Z) (st1 : store) (m' : Z -> Z) : Prop :=
  (forall x, live sc' x -> load32 m' (adr obase' x) = st1 x) /\
  (forall y, live sc y -> (forall x, live sc' x -> apart (adr obase y) 4 (adr obase' x) 4) -> load32 m' (adr obase y) = st y).
(* Of everything else, only the unused gap changes. *)
Definition call_keeps (M : machine) (sc : scope) (obase : nat -> Z) (sc' : scope) (obase' : nat -> Z) (q : Z) (m m' : Z -> Z) : Prop :=
  forall x, ~ (hp (m_rt M) <= x < q) -> (forall c, live sc c -> apart x 1 (adr obase c) 4) ->
    (forall c, live sc' c -> apart x 1 (adr obase' c) 4) -> m' x = m x.
