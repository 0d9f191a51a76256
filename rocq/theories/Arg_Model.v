(* Which argument of a call goes to which parameter: compiler/parser.cpp:1078-1120, compiler/semantics.cpp:1927-2050,
   compiler/parse-node.cpp:127-133.  Names are numbers.  [E] stands for expressions.  The checks that an expression may
   be passed for a parameter (semantics.cpp:2056-2157) are one function, [conv]: the expression as it is passed, or
   [None] when an error is reported.  How the called function is found, and calls outside of functions (error 10), are
   left out. *)
From Verif Require Import Base.

(* compiler/parse-node.h ArgDecl: a declared parameter. *)
Record param := mkParam { p_name : nat; p_varargs : bool; p_default : bool }.

Section Calls.
Variable E : Type.
Variable params : list param.                   (* fun->args() *)
Variable conv : nat -> E -> option E.           (* which parameter, what is written for it *)

(* An argument as written: e, _, .name = e, .name = _. *)
Inductive written := Plain (e : E) | Skip | Dot (n : nat) (e : E) | DotSkip (n : nat).
(* The node made for it: an expression, NamedArgExpr, DefaultArgExpr. *)
Inductive parsed := PExpr (e : E) | PNamed (n : nat) (e : E) | PDefault.

(* parser.cpp:1085-1118: the nodes, and the errors reported.  The name of ".name = _" is dropped. *)
Fixpoint parse_args (named_params : bool) (l : list written) : list parsed * list Z :=
  match l with
  | [] => ([], [])
  | w :: rest =>
    let dotted := match w with Dot _ _ | DotSkip _ => true | _ => false end in
    let '(ps, errs) := parse_args (named_params || dotted) rest in
    let p := match w with Plain e => PExpr e | Dot n e => PNamed n e | Skip | DotSkip _ => PDefault end in
    (p :: ps, if negb dotted && named_params then 44 :: errs else errs)
  end.

(* What is passed: an expression, or the default value of the d-th parameter. *)
Inductive filled := Given (e : E) | DefaultOf (d : nat).
Inductive outcome (A : Type) := Refused (error : Z) | Accepted (a : A).
Arguments Refused {A} _. Arguments Accepted {A} _.

(* parse-node.cpp:127-133. *)
Fixpoint find_named_arg (l : list param) (i n : nat) : option nat :=
  match l with
  | [] => None
  | p :: rest => if p_varargs p then None else if Nat.eqb (p_name p) n then Some i else find_named_arg rest (S i) n
  end.

(* semantics.cpp:2024-2050 and what follows; [a]: None is a null pointer.  Error 0 stands for those of [conv]. *)
Definition check_argument (d : nat) (a : option parsed) : outcome filled :=
  match nth_error params d with
  | None => Refused 92                           (* never asked *)
  | Some p =>
    match a with
    | None | Some PDefault =>
      if p_varargs p then Refused 92 else if negb (p_default p) then Refused 34 else Accepted (DefaultOf d)
    | Some (PExpr e) | Some (PNamed _ e) => match conv d e with None => Refused 0 | Some e' => Accepted (Given e') end
    end
  end.

(* ps.argv, which grows with null pointers (semantics.cpp:2027-2028). *)
Fixpoint set_at (argv : list (option filled)) (pos : nat) (f : filled) : list (option filled) :=
  match pos, argv with
  | O, [] => [Some f]
  | O, _ :: t => Some f :: t
  | S k, [] => None :: set_at [] k f
  | S k, x :: t => x :: set_at t k f
  end.

Definition SP_MAX_CALL_ARGUMENTS : nat := 127.

(* semantics.cpp:1951-1993: the loop over the arguments.  namedparams is never set, so the test at 1961 never
   succeeds.  An unknown name is reported and ends the loop, not the function; the compilation has failed. *)
Fixpoint bind_args (args : list parsed) (nargs argidx : nat) (argv : list (option filled)) : outcome (list (option filled)) :=
  match args with
  | [] => Accepted argv
  | a :: rest =>
    let at_ := match a with
               | PNamed n _ => match find_named_arg params 0 n with None => Refused 17 | Some pos => Accepted (pos, pos) end
               | _ => if (length params <=? argidx)%nat then Refused 92 else Accepted (nargs, argidx)
               end in
    match at_ with
    | Refused c => Refused c
    | Accepted (argpos, argidx) =>
      if (SP_MAX_CALL_ARGUMENTS <=? argpos)%nat then Refused 45
      else
        match nth argpos argv None with
        | Some _ => Refused 58
        | None =>
          match check_argument argidx (Some a) with
          | Refused c => Refused c
          | Accepted f =>
            let varargs := match nth_error params argidx with Some p => p_varargs p | None => false end in
            bind_args rest (S nargs) (if varargs then argidx else S argidx) (set_at argv argpos f)
          end
        end
    end
  end.

(* semantics.cpp:2000-2013: the parameters nothing was written for. *)
Fixpoint fill_in (l : list param) (i : nat) (argv : list (option filled)) : outcome (list (option filled)) :=
  match l with
  | [] => Accepted argv
  | p :: rest =>
    if p_varargs p then Accepted argv
    else
      match nth i argv None with
      | Some _ => fill_in rest (S i) argv
      | None => match check_argument i None with Refused c => Refused c | Accepted f => fill_in rest (S i) (set_at argv i f) end
      end
  end.

(* semantics.cpp:1931-2021; [this]: call->implicit_this(). *)
Definition check_call (this : option E) (args : list parsed) : outcome (list (option filled)) :=
  let start :=
    match this with
    | None => Accepted ([], O)
    | Some e =>
      match params with
      | [] => Refused 92
      | _ => match check_argument 0 (Some (PExpr e)) with Refused c => Refused c | Accepted f => Accepted (set_at [] 0 f, 1%nat) end
      end
    end in
  match start with
  | Refused c => Refused c
  | Accepted (argv, n) =>
    match bind_args args n n argv with
    | Refused c => Refused c
    | Accepted argv => fill_in params 0 argv
    end
  end.

(* A call: parsed, then checked. *)
Definition call (this : option E) (w : list written) : outcome (list (option filled)) :=
  let '(args, errs) := parse_args false w in
  match errs with
  | e :: _ => Refused e
  | [] => check_call this args
  end.
End Calls.
Arguments Plain {E} _. Arguments Skip {E}. Arguments Dot {E} _ _. Arguments DotSkip {E} _.
Arguments PExpr {E} _. Arguments PNamed {E} _ _. Arguments PDefault {E}.
Arguments Given {E} _. Arguments DefaultOf {E} _.
Arguments Refused {A} _. Arguments Accepted {A} _.
Arguments parse_args {E} _ _. Arguments check_argument {E} _ _ _ _. Arguments set_at {E} _ _ _.
Arguments bind_args {E} _ _ _ _ _ _. Arguments fill_in {E} _ _ _ _ _. Arguments check_call {E} _ _ _ _. Arguments call {E} _ _ _ _.
