(* What a call says about its arguments. *)
From Verif Require Import Base Arg_Model.

(* A parameter list: parameters with different names, and possibly "..." at the end. *)
Definition shaped (params : list param) : Prop :=
  exists fixed rest, params = fixed ++ rest /\ (forall p, In p fixed -> p_varargs p = false) /\ NoDup (map p_name fixed) /\
    (rest = [] \/ exists v, rest = [v] /\ p_varargs v = true).

Section Spec.
Context {E : Type}.
Variable params : list param.
Variable conv : nat -> E -> option E.
Variable this : option E.
Variable w : list (@written E).

Definition dotted (a : @written E) : Prop := match a with Dot _ _ | DotSkip _ => True | _ => False end.

(* The k-th argument written is for position s: by name, or by counting, the object of a method coming first. *)
Definition meant_for (k s : nat) : Prop :=
  match nth_error w k with
  | Some (Plain _) | Some Skip => s = ((match this with None => 0 | Some _ => 1 end) + k)%nat
  | Some (Dot n _) | Some (DotSkip n) => exists p, nth_error params s = Some p /\ p_varargs p = false /\ p_name p = n
  | None => False
  end.
(* Expression [e] is written for position [s]. *)
Definition written_for (s : nat) (e : E) : Prop :=
  (s = 0%nat /\ this = Some e) \/
  exists k, meant_for k s /\ (nth_error w k = Some (Plain e) \/ exists n, nth_error w k = Some (Dot n e)).
(* The parameter whose declaration governs a position: its own, or "...". *)
Definition governs (s : nat) : nat := Nat.min s (pred (length params)).

(* What position [s] must receive. *)
Definition receives (s : nat) (f : @filled E) : Prop :=
  (exists e e', written_for s e /\ conv (governs s) e = Some e' /\ f = Given e') \/
  ((forall e, ~ written_for s e) /\ f = DefaultOf s /\
   exists p, nth_error params s = Some p /\ p_varargs p = false /\ p_default p = true).

(* A call that is right. *)
Record right : Prop := mkRight {
  (* arguments by position come first *)
  r_order : forall k k' a a', (k < k')%nat -> nth_error w k = Some a -> nth_error w k' = Some a' -> dotted a -> dotted a';
  (* every name is a parameter's *)
  r_named : forall k, (k < length w)%nat -> exists s, meant_for k s;
  (* nothing is written twice *)
  r_once : forall k k' s, meant_for k s -> meant_for k' s -> k = k';
  r_this : forall k s, meant_for k s -> this <> None -> s <> 0%nat;
  (* no more arguments than parameters, unless there is "...", and at most 127 *)
  r_room : forall k s, meant_for k s -> (s < 127)%nat /\
           exists p, nth_error params (governs s) = Some p /\ (p_varargs p = true \/ governs s = s);
  (* only parameters are skipped *)
  r_skip : forall k, nth_error w k = Some Skip -> exists s p, meant_for k s /\ nth_error params s = Some p /\ p_varargs p = false;
  (* what is written may be passed *)
  r_conv : forall s e, written_for s e -> conv (governs s) e <> None;
  (* what has no default is written *)
  r_required : forall s p, nth_error params s = Some p -> p_varargs p = false -> p_default p = false -> exists e, written_for s e
}.
End Spec.
