(* What conditional sections mean: of the branches of a group the first whose condition holds is compiled, or the #else branch if
   none does; the others might as well not be there, their conditions included. *)
From Verif Require Import Base Pre_Model.

(* A file in which every section is properly nested. *)
Inductive item (T C : Type) :=
| IText (t : T)
| IGroup (c : C) (body : list (item T C)) (more : list (C * list (item T C))) (other : option (list (item T C)))
| IEnd
| IInclude (f : list (item T C)).
Arguments IText {T C}. Arguments IGroup {T C}. Arguments IEnd {T C}. Arguments IInclude {T C}.

Section Written.
Variables T C : Type.
(* The lines in which it is written. *)
Fixpoint lines_of (i : item T C) : list (line T C) :=
  let all := fix all (l : list (item T C)) : list (line T C) := match l with [] => [] | i :: r => lines_of i ++ all r end in
  match i with
  | IText t => [LText t]
  | IGroup c body more other =>
      LIf c :: all body ++
      (fix parts (l : list (C * list (item T C))) : list (line T C) :=
         match l with [] => [] | (c, b) :: r => LElseif c :: all b ++ parts r end) more ++
      match other with Some b => LElse :: all b | None => [] end ++ [LEndif]
  | IEnd => [LEnd]
  | IInclude f => [LInclude (all f)]
  end.
Fixpoint written (l : list (item T C)) : list (line T C) := match l with [] => [] | i :: r => lines_of i ++ written r end.
End Written.
Arguments lines_of {T C}. Arguments written {T C}.

(* Where compiling a text ended: at its end, at an #endinput outside every group, or at one inside a group. *)
Inductive halt := Full | Ended | EndedInside.

Section Meaning.
Variables T C E : Type.
Variable perform : T -> E -> E.
Variable eval : C -> E -> bool * bool.

(* What a text amounts to: the environment after it, the lines compiled, the conditions in error, and where it ended. *)
Record sel := mkSel { s_env : E; s_kept : list T; s_errs : list perr; s_halt : halt }.

Definition sel_then (a : sel) (k : E -> sel) : sel :=
  match s_halt a with
  | Full => let b := k (s_env a) in mkSel (s_env b) (s_kept a ++ s_kept b) (s_errs a ++ s_errs b) (s_halt b)
  | _ => a
  end.
Definition inside (a : sel) : sel := mkSel (s_env a) (s_kept a) (s_errs a) (match s_halt a with Full => Full | _ => EndedInside end).
Definition closed (a : sel) : sel := mkSel (s_env a) (s_kept a) (s_errs a) Full.
(* A condition: its value picks one of two readings, its error is noted. *)
Definition choose (c : C) (e : E) (a b : sel) : sel :=
  let '(v, bad) := eval c e in
  let x := if v then a else b in
  mkSel (s_env x) (s_kept x) ((if bad then [ECond] else []) ++ s_errs x) (s_halt x).

Fixpoint means (i : item T C) (e : E) : sel :=
  let all := fix all (l : list (item T C)) (e : E) : sel :=
    match l with [] => mkSel e [] [] Full | i :: r => sel_then (means i e) (all r) end in
  match i with
  | IText t => mkSel (perform t e) [t] [] Full
  | IGroup c body more other =>
      choose c e (inside (all body e))
        ((fix parts (l : list (C * list (item T C))) : sel :=
            match l with
            | [] => match other with Some b => inside (all b e) | None => mkSel e [] [] Full end
            | (c, b) :: r => choose c e (inside (all b e)) (parts r)
            end) more)
  | IEnd => mkSel e [] [] Ended
  | IInclude f => closed (all f e)
  end.
Fixpoint meaning (l : list (item T C)) (e : E) : sel :=
  match l with [] => mkSel e [] [] Full | i :: r => sel_then (means i e) (meaning r) end.
End Meaning.
Arguments mkSel {T E}. Arguments s_env {T E}. Arguments s_kept {T E}. Arguments s_errs {T E}. Arguments s_halt {T E}.
Arguments sel_then {T E}. Arguments inside {T E}. Arguments closed {T E}. Arguments choose {T C E}. Arguments means {T C E}. Arguments meaning {T C E}.

(* Nesting by counting, for text with no #include and no #endinput: every #else, #elseif and #endif stands in a section begun by an
   #if, and every #if is closed. *)
Definition closer {T C} (l : line T C) : bool := match l with LElse | LElseif _ | LEndif => true | _ => false end.
Definition deeper {T C} (l : line T C) (n : nat) : nat := match l with LIf _ => S n | LEndif => pred n | _ => n end.
Fixpoint depth {T C} (ls : list (line T C)) (n : nat) : option nat :=
  match ls with
  | [] => Some n
  | l :: r => if closer l && (n =? 0)%nat then None else depth r (deeper l n)
  end.
Definition plain {T C} (l : line T C) : Prop := match l with LInclude _ | LEnd => False | _ => True end.

(* No included file holds an #else, #elseif or #endif outside the sections it begins itself. *)
Section Own.
Variables T C : Type.
Fixpoint own_sections (l : line T C) : bool :=
  match l with
  | LInclude f =>
      (fix go (ls : list (line T C)) (n : nat) : bool :=
         match ls with
         | [] => true
         | l :: r => own_sections l && negb (closer l && (n =? 0)%nat) && go r (deeper l n)
         end) f O
  | _ => true
  end.
End Own.
Arguments own_sections {T C}.
