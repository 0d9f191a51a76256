(* compiler/lexer.cpp: conditional sections (#if, #elseif, #else, #endif), #include and #endinput.  C49.
   The text is taken as lines that have been told apart already: comments are gone, and a directive is a line of its own.
   What the other directives and ordinary lines do is left open: a line changes the environment (the macros defined), and a
   condition is evaluated in it. *)
From Verif Require Import Base.

Inductive line (T C : Type) :=
| LText (t : T)                          (* any line that is not one of the directives below *)
| LIf (c : C) | LElseif (c : C) | LElse | LEndif
| LEnd                                   (* #endinput, #endscript *)
| LInclude (f : list (line T C)).        (* #include of a file with these lines *)
Arguments LText {T C}. Arguments LIf {T C}. Arguments LElseif {T C}. Arguments LElse {T C}. Arguments LEndif {T C}.
Arguments LEnd {T C}. Arguments LInclude {T C}.

(* compiler/lexer.h:127-129: the three bits of an entry of ifstack_. *)
Record flags := mkFlags { skip : bool; parse : bool; handled : bool }.

(* report(26), report(60), report(61), report(1) and any error of a condition (preproc_expr). *)
Inductive perr := ENoIf | ETwoElse | EElseifAfterElse | EUnclosed | ECond.

Section Conditionals.
Variables T C E : Type.
Variable perform : T -> E -> E.
(* Parser::PreprocExpr, lexer.cpp:300-303: the value, zero if there was an error, and whether there was one. *)
Variable eval : C -> E -> bool * bool.

(* ifs: ifstack_, innermost first.  lvl: skiplevel_.  skp: inside HandleSkippedSection. *)
Record pst := mkPst { ifs : list flags; lvl : nat; skp : bool; env : E; kept : list T; errs : list perr }.

(* A failed assertion, or a read past the end of ifstack_, is Broken. *)
Inductive pres := Went (st : pst) (stop : bool) | Broken.

Definition set_ifs (st : pst) (l : list flags) (n : nat) (s : bool) : pst := mkPst l n s (env st) (kept st) (errs st).
Definition note (st : pst) (e : perr) : pst := mkPst (ifs st) (lvl st) (skp st) (env st) (kept st) (errs st ++ [e]).
Definition note_if (b : bool) (e : perr) (st : pst) : pst := if b then note st e else st.

(* lexer.h:257-259 IsSkipping; None is a read outside the vector. *)
Definition is_skipping (l : list flags) (n : nat) : option bool :=
  match n with O => Some false | S m => option_map skip (nth_error (rev l) m) end.

(* lexer.cpp:325-377, 456-460 HandleDirectives, and an ordinary line; LInclude is handled in run_line. *)
Definition act (st : pst) (l : line T C) : pres :=
  match l with
  | LText t => Went (mkPst (ifs st) (lvl st) (skp st) (perform t (env st)) (kept st ++ [t]) (errs st)) false
  | LIf c =>
      let '(v, bad) := eval c (env st) in
      let st := note_if bad ECond st in
      let l := mkFlags (negb v) v false :: ifs st in
      match is_skipping l (length l) with
      | Some s => Went (set_ifs st l (length l) s) false
      | None => Broken
      end
  | LElse =>
      match ifs st with
      | [] => Went (note st ENoIf) false
      | f :: r => let st := note_if (handled f) ETwoElse st in Went (set_ifs st (mkFlags true (parse f) true :: r) (lvl st) true) false
      end
  | LElseif c =>
      match ifs st with
      | [] => Went (note st ENoIf) false
      | f :: r => let st := note_if (handled f) EElseifAfterElse st in
                  Went (set_ifs st (mkFlags true (parse f) (handled f) :: r) (lvl st) true) false
      end
  | LEndif =>
      match ifs st with
      | [] => Went (note st ENoIf) false
      | f :: r => Went (set_ifs st r (if length r <? lvl st then length r else lvl st)%nat (skp st)) false
      end
  | LEnd => Went st true
  | LInclude _ => Went st false
  end.

(* lexer.cpp:578-663 HandleSkippedSection: one line. *)
Definition pass (st : pst) (l : line T C) : pres :=
  match l with
  | LText _ | LEnd | LInclude _ => Went st false
  | LIf _ => Went (set_ifs st (mkFlags false false false :: ifs st) (lvl st) true) false
  | LElse =>
      match ifs st with
      | [] => Broken
      | f :: r =>
          if handled f then Went (note st ETwoElse) false
          else if parse f then Went st false
          else let l := mkFlags false false true :: r in
               match is_skipping l (lvl st) with
               | Some s => Went (set_ifs st l (lvl st) s) false
               | None => Broken
               end
      end
  | LElseif c =>
      match ifs st with
      | [] => Broken
      | f :: r =>
          if handled f then Went (note st EElseifAfterElse) false
          else if parse f then Went st false
          else if negb (lvl st =? length (ifs st))%nat then Went st false
          else let '(v, bad) := eval c (env st) in
               let st := note_if bad ECond st in
               let l := mkFlags (negb v) v (handled f) :: r in
               match is_skipping l (lvl st) with
               | Some s => Went (set_ifs st l (lvl st) s) false
               | None => Broken
               end
      end
  | LEndif =>
      match ifs st with
      | [] => Broken
      | f :: r =>
          let n := (if length r <? lvl st then length r else lvl st)%nat in
          match is_skipping r n with
          | Some s => Went (set_ifs st r n s) false
          | None => Broken
          end
      end
  end.

(* lexer.cpp:86-101 PlungeFile: its assertions, with entry_preproc_if_stack_size = length (ifs st). *)
Definition may_enter (st : pst) : bool :=
  match is_skipping (ifs st) (lvl st) with Some false => (lvl st =? length (ifs st))%nat | _ => false end.

(* lexer.cpp:905-914, the end of an included file: the entries it left are dropped and the level is as before it. *)
Definition leave (n : nat) (st : pst) : pres :=
  let l := skipn (length (ifs st) - n) (ifs st) in
  if negb (length l =? n)%nat then Broken
  else match is_skipping l n with Some false => Went (set_ifs st l n false) false | _ => Broken end.

(* One line, which for #include is the whole file. *)
Fixpoint run_line (l : line T C) (st : pst) : pres :=
  if skp st then pass st l else
  match l with
  | LInclude f =>
      if negb (may_enter st) then Broken else
      match (fix go (ls : list (line T C)) (st : pst) : pres :=
               match ls with
               | [] => Went st false
               | l :: r => match run_line l st with Went st' false => go r st' | x => x end
               end) f st with
      | Went st' _ => leave (length (ifs st)) st'
      | Broken => Broken
      end
  | _ => act st l
  end.

(* Lines one after the other, up to #endinput. *)
Fixpoint run_lines (ls : list (line T C)) (st : pst) : pres :=
  match ls with
  | [] => Went st false
  | l :: r => match run_line l st with Went st' false => run_lines r st' | x => x end
  end.

(* A whole program: lexer.cpp:864-877, at the end of the main file an open #if is an error. *)
Definition run_main (ls : list (line T C)) (e : E) : pres :=
  match run_lines ls (mkPst [] 0 false e [] []) with
  | Went st s => Went (match ifs st with [] => st | _ => note st EUnclosed end) s
  | Broken => Broken
  end.
End Conditionals.
Arguments mkPst {T E}. Arguments ifs {T E}. Arguments lvl {T E}. Arguments skp {T E}. Arguments env {T E}. Arguments kept {T E}. Arguments errs {T E}.
Arguments Went {T E}. Arguments Broken {T E}. Arguments set_ifs {T E}. Arguments note {T E}. Arguments note_if {T E}.
Arguments act {T C E}. Arguments pass {T C E}. Arguments leave {T E}. Arguments may_enter {T E}. Arguments run_line {T C E}. Arguments run_lines {T C E}. Arguments run_main {T C E}.
