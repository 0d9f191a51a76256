(* What schedules say, without the watchdog's own bookkeeping. *)
From Verif Require Import Base Wd_Model.

(* How many invocations are open, and how many outermost ones have been entered: the running code belongs to the
   outermost invocation entered last. *)
Fixpoint open_after (es : list event) (d : nat) : nat :=
  match es with [] => d | ETop :: r => open_after r (S d) | ELeave :: r => open_after r (pred d) | _ :: r => open_after r d end.
Fixpoint outermost (es : list event) (d : nat) : nat :=
  match es with
  | [] => 0
  | EEnter :: r => (if (d =? 0)%nat then 1 else 0) + outermost r d
  | ETop :: r => outermost r (S d)
  | ELeave :: r => outermost r (pred d)
  | _ :: r => outermost r d
  end.
(* One timer check is a TReadId and the next TReadTop; between them, and between consecutive checks, the watchdog
   neither looks nor fires. *)
Definition acts (e : event) : bool := match e with TReadId | TReadTop | TFire => true | _ => false end.
Definition quiet (es : list event) : Prop := forallb (fun e => negb (acts e)) es = true.
(* Something runs all through [es]. *)
Definition runs_through (before es : list event) (d : nat) : Prop :=
  forall q r, es = q ++ r -> (open_after (before ++ q) d > 0)%nat.

(* Schedules in which wait returns only when notified, and no function is linked while a time-out is pending. *)
Fixpoint orderly (es : list event) (s : wd) : Prop :=
  match es with
  | [] => True
  | e :: r =>
      match e with TSpurious => False | ELink _ => timedout s = false | _ => True end /\
      match step e s with Some s' => orderly r s' | None => True end
  end.
(* The main thread is dealing with a time-out: the running code gets the error. *)
Definition handling (s : wd) : bool := match m s with MUnpatch | MClear | MNotify => true | _ => false end.
Definition restored (s : wd) : Prop := Forall (fun f => now f = at_link f) (funs s).
Definition fires (e : event) : bool := match e with TFire => true | _ => false end.
(* The steps a thread takes by itself: the watchdog's, except that its wait returns unasked; the main thread's while it
   handles a time-out. *)
Definition own (e : event) : bool :=
  match e with
  | TStart | TTimeout | TWake | TReadId | TReadTop | TFire | TPatch | TPark | TResume | EUnpatch | EClear | ENotify => true
  | _ => false
  end.
