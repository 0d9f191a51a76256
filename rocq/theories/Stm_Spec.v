(* What statements do: in order, one at a time, choices and loops by the value of their conditions. C29. *)
From Verif Require Import Base Rt_Model Interp_Model Gen_Model Gen_Spec Stm_Model.

(* How a statement ends: normally, or by leaving for the nearest loop's end, its next round, or the caller. *)
Inductive okind := Normal | Brk | Cont | Ret (v : Z).
Inductive sres := Fin (o : okind) (st : store) | SErr (e : err) (st : store) | SUnspec | SFuel.
Definition sthen (r : sres) (k : okind -> store -> sres) : sres := match r with Fin o st => k o st | x => x end.
Definition seval (r : ev Z) (k : Z -> store -> sres) : sres :=
  match r with Val v st => k v st | Err e st => SErr e st | Unspecified => SUnspec end.

(* At most [n] rounds: test, then the body, then the advance.  A break ends the loop, a continue the body. *)
Fixpoint rounds (n : nat) (test advance : store -> ev Z) (body : store -> sres) (st : store) : sres :=
  match n with
  | O => SFuel
  | S n' =>
      seval (test st) (fun v st =>
        if v =? 0 then Fin Normal st
        else sthen (body st) (fun o st =>
          match o with
          | Normal | Cont => seval (advance st) (fun _ st => rounds n' test advance body st)
          | Brk => Fin Normal st
          | Ret v => Fin (Ret v) st
          end))
  end.
(* The body first, the test after it. *)
Fixpoint rounds_do (n : nat) (test : store -> ev Z) (body : store -> sres) (st : store) : sres :=
  match n with
  | O => SFuel
  | S n' =>
      sthen (body st) (fun o st =>
        match o with
        | Normal | Cont => seval (test st) (fun v st => if v =? 0 then Fin Normal st else rounds_do n' test body st)
        | Brk => Fin Normal st
        | Ret v => Fin (Ret v) st
        end)
  end.

Section Exec.
Variable sc : scope.
Definition evalo (e : option expr) (none : Z) (st : store) : ev Z :=
  match e with Some e => eval sc e st | None => Val none st end.

(* [f]: the number of rounds a loop may take, each time it is entered. *)
Fixpoint execs (f : nat) (s : stmt) (st : store) {struct s} : sres :=
  match s with
  | SExpr e => seval (eval sc e st) (fun _ st => Fin Normal st)
  | SDecl slot init =>
      match vloc sc (VLocal slot) with
      | Some x => seval (evalo init 0 st) (fun v st => Fin Normal (update st x v))
      | None => SUnspec
      end
  | SBlock b => execs_l f b st
  | SIf c a => seval (eval sc c st) (fun v st => if v =? 0 then Fin Normal st else execs f a st)
  | SIfElse c a b => seval (eval sc c st) (fun v st => if v =? 0 then execs f b st else execs f a st)
  | SWhile c b => rounds f (eval sc c) (fun st => Val 0 st) (fun st => execs f b st) st
  | SDo b c => rounds_do f (eval sc c) (fun st => execs f b st) st
  | SFor init c a b =>
      sthen (execs_l f init st) (fun o st =>
        match o with Normal => rounds f (evalo c 1) (evalo a 0) (fun st => execs f b st) st | _ => Fin o st end)
  | SSwitch e cs => seval (eval sc e st) (fun v st => execs_c f v cs st)
  | SBreak => Fin Brk st
  | SContinue => Fin Cont st
  | SReturn e => seval (evalo e 0 st) (fun v st => Fin (Ret v) st)
  end
with execs_l (f : nat) (b : stmts) (st : store) {struct b} : sres :=
  match b with
  | SNil => Fin Normal st
  | SCons s r => sthen (execs f s st) (fun o st => match o with Normal => execs_l f r st | _ => Fin o st end)
  end
(* The first case that lists [v], otherwise the default. *)
with execs_c (f : nat) (v : Z) (cs : cases) (st : store) {struct cs} : sres :=
  match cs with
  | KEnd => Fin Normal st
  | KDefault s => execs f s st
  | KCase vs s r => if existsb (Z.eqb v) vs then execs f s st else execs_c f v r st
  end.

(* A function's body: falling off its end returns 0. *)
Definition execs_body (f : nat) (s : stmt) (st : store) : sres :=
  sthen (execs f s st) (fun o st => match o with Normal => Fin (Ret 0) st | _ => Fin o st end).
End Exec.

(* The most cells of temporaries any expression of a statement needs. *)
Definition depth_o (e : option expr) : Z := match e with Some e => depth e | None => 0 end.
Fixpoint sdepth (s : stmt) : Z :=
  match s with
  | SExpr e => depth e
  | SDecl _ i => depth_o i
  | SBlock b => sdepth_l b
  | SIf c a => Z.max (depth c) (sdepth a)
  | SIfElse c a b => Z.max (depth c) (Z.max (sdepth a) (sdepth b))
  | SWhile c b => Z.max (depth c) (sdepth b)
  | SDo b c => Z.max (depth c) (sdepth b)
  | SFor i c a b => Z.max (Z.max (sdepth_l i) (sdepth b)) (Z.max (depth_o c) (depth_o a))
  | SSwitch e cs => Z.max (depth e) (sdepth_c cs)
  | SBreak | SContinue => 0
  | SReturn e => depth_o e
  end
with sdepth_l (b : stmts) : Z := match b with SNil => 0 | SCons s r => Z.max (sdepth s) (sdepth_l r) end
with sdepth_c (cs : cases) : Z :=
  match cs with KEnd => 0 | KDefault s => sdepth s | KCase _ s r => Z.max (sdepth s) (sdepth_c r) end.

Section Machine.
Variable M : machine.
Variable sc : scope.
Variable obase : nat -> Z.
(* From [c], with [n] the number of rounds the source was given: the source's outcome [r] is the machine's, with [P] of
   how it ended and where; if the rounds ran out, the machine is still running after [n] steps. *)
Definition behaves (n : nat) (m : Z -> Z) (c : config) (q : Z) (r : sres) (P : okind -> (Z -> Z) -> config -> Prop) : Prop :=
  match r with
  | Fin o st => exists m' c', gets M c c' /\ P o m' c' /\ holds M sc obase st m' /\ only_data M sc obase q m m'
  | SErr e st => stops M sc obase c e st
  | SUnspec => True
  | SFuel => exists c', vrun M n c = inr c'
  end.
(* About to return [v]: at a RETN instruction, PRI holding the value, the stack as it was. *)
Definition returning (q : Z) (o : okind) (m' : Z -> Z) (c' : config) : Prop :=
  exists v k a, o = Ret v /\ c' = at_ M m' q k v a /\ is_i32 v /\
    0 <= k < Z.of_nat (length (p_code (m_prog M))) /\ cell_at (p_code (m_prog M)) k = 48.
End Machine.
