(* compiler/lexer.cpp: the text of a macro, the arguments of a call, and putting the one into the other; and expansion of macros within
   macros.  C50.  Text is a list of bytes; where it ends there is a zero byte (peek()). *)
From Verif Require Import Base.

(* sci18n.h:28-40, and the characters meant. *)
Definition is_space (c : Z) : bool := (c =? 32) || ((9 <=? c) && (c <=? 13)).
Definition is_newline (c : Z) : bool := (c =? 13) || (c =? 10).
Definition is_digit (c : Z) : bool := (48 <=? c) && (c <=? 57).
Definition slash := 47. Definition star := 42. Definition backslash := 92. Definition quote := 34. Definition apostrophe := 39.
Definition percent := 37. Definition hash := 35. Definition lparen := 40. Definition rparen := 41. Definition comma := 44.

(* peek() *)
Definition look (s : list Z) : Z := match s with c :: _ => c | [] => 0 end.

(* lexer.cpp:675-684 AddText.  The text since *start is given; None is a null start. *)
Definition add_text (text : list Z) (start : option (list Z)) (extra : option Z) : list Z :=
  match start with
  | None => text
  | Some p =>
      let t := text ++ p in
      match extra with
      | None => t
      | Some x => match rev t with [] => t | y :: _ => if y =? x then t else t ++ [x] end
      end
  end.

(* lexer.cpp:916-927 HandleNewline: \r\n is one newline. *)
Definition after_newline (s : list Z) : list Z :=
  match s with
  | c :: r => if c =? 13 then match r with d :: r' => if d =? 10 then r' else r | [] => r end else r
  | [] => []
  end.

(* lexer.cpp:665-672 SkipLineWhitespace *)
Fixpoint skip_blanks (s : list Z) : list Z :=
  match s with c :: r => if is_space c && negb (is_newline c) then skip_blanks r else s | [] => [] end.

(* lexer.cpp:844-862 MaybeHandleLineContinuation: the first character is taken for the backslash, whatever it is. *)
Definition continuation (s : list Z) : option (list Z) :=
  match s with
  | _ :: r => let s' := skip_blanks r in if is_newline (look s') then Some (after_newline s') else None
  | [] => None
  end.

(* lexer.cpp:956-988 HandleMultiLineComment, from after the opening; at the end of the text it stops (and reports). *)
Fixpoint after_comment (s : list Z) : list Z :=
  match s with
  | [] => []
  | c :: r => if c =? star then match r with d :: r' => if d =? slash then r' else after_comment r | [] => [] end else after_comment r
  end.
(* lexer.cpp:930-953 HandleSingleLineComment *)
Fixpoint after_line_comment (s : list Z) : list Z :=
  match s with [] => [] | c :: r => if (c =? 0) || is_newline c then s else after_line_comment r end.

Inductive skim_res := Skimmed (text : list Z) (args : list nat) (rest : list Z) | SkimEof | SkimFuel.

(* lexer.cpp:714-736: the loop over a string in SkimUntilEndOfLine.  Bytes above 0x7f are passed over one by one, not by character; none
   of them is a character looked for.  The control character is the backslash.  Running off the text is SkimEof (an assertion in advance()). *)
Fixpoint skim_string (fuel : nat) (term : Z) (s : list Z) (text : list Z) (start : option (list Z)) : option (list Z * list Z * option (list Z)) :=
  match fuel with
  | O => None
  | S n =>
      match s with
      | [] => None
      | ch :: r =>
          let start' := match start with Some p => Some (p ++ [ch]) | None => None end in
          if (ch =? backslash) && (look r =? term) then
            match r with
            | d :: r' => skim_string n term r' text (match start' with Some p => Some (p ++ [d]) | None => None end)
            | [] => None
            end
          else if ch =? backslash then
            let text' := add_text text start None in
            match continuation r with
            | Some r' => skim_string n term r' text' (Some [])
            | None => match r with [] => None | _ => skim_string n term r text' (Some [ch]) end
            end
          else if (ch =? 0) || (ch =? term) || is_newline ch then Some (r, text, start')
          else skim_string n term r text start'
      end
  end.

(* lexer.cpp:749-750 *)
Fixpoint drop_spaces (s : list Z) : list Z := match s with c :: r => if is_space c then drop_spaces r else s | [] => [] end.
Definition trim_end (s : list Z) : list Z := rev (drop_spaces (rev s)).

(* lexer.cpp:686-753 SkimUntilEndOfLine; args: whether parameters are looked for. *)
Fixpoint skim (fuel : nat) (args : bool) (s text : list Z) (start : option (list Z)) (found : list nat) : skim_res :=
  match fuel with
  | O => SkimFuel
  | S n =>
      let c := look s in
      let stop := Skimmed (trim_end (add_text text start None)) found s in
      match s with
      | [] => stop
      | _ :: r =>
          if (c =? 0) || is_newline c then stop
          else if (c =? slash) && (look r =? slash) then stop
          else if (c =? slash) && (look r =? star) then skim n args (after_comment (tl r)) (add_text text start (Some 32)) None found
          else
            match (if c =? backslash then continuation s else None) with
            | Some r' => skim n args r' (add_text text start (Some 32)) None found
            | None =>
                let start' := match start with Some p => Some (p ++ [c]) | None => if is_space c then None else Some [c] end in
                if (c =? quote) || (c =? apostrophe) then
                  match skim_string (S (length r)) c r text start' with
                  | Some (r', text', start2) => skim n args r' text' start2 found
                  | None => SkimEof
                  end
                else if (c =? percent) && args && is_digit (look r) then
                  let text' := add_text text (match start' with Some p => Some (p ++ [look r]) | None => None end) None in
                  skim n args (tl r) text' (Some []) (found ++ [(length text' - 2)%nat])
                else skim n args r text start' found
            end
      end
  end.
Definition skim_line (args : bool) (s : list Z) : skim_res := skim (S (length s)) args s [] None [].

(* lexer.cpp:2786-2826 PerformMacroSubstitution; None is a failed assertion. *)
Definition lookup (args : list (Z * list Z)) (n : Z) : option (list Z) :=
  match find (fun a => fst a =? n) args with Some a => Some (snd a) | None => None end.
Fixpoint substitute (sub : list Z) (args : list (Z * list Z)) (ps : list nat) (last_start : nat) : option (list Z) :=
  match ps with
  | [] => Some (skipn last_start sub)
  | pos :: r =>
      let at_ := fun i => nth i sub 0 in
      if (pos <? last_start)%nat || negb (at_ pos =? percent) || negb (is_digit (at_ (S pos))) then None else
      let str := (0 <? pos)%nat && (at_ (pred pos) =? hash) in
      let last_end := if str then pred pos else pos in
      let run := firstn (last_end - last_start) (skipn last_start sub) in
      match substitute sub args r (pos + 2) with
      | None => None
      | Some rest =>
          Some (run ++ match lookup args (at_ (S pos) - 48) with
                       | None => [at_ pos; at_ (S pos)]
                       | Some a => if str then quote :: a ++ [quote] else a
                       end ++ rest)
      end
  end.

(* lexer.cpp:2730-2784 SkimMacroArgument: the argument and what follows it. *)
Fixpoint skim_arg (fuel : nat) (s text : list Z) (start : option (list Z)) (nparens : nat) (closer : bool) : option (list Z * list Z) :=
  match fuel with
  | O => None
  | S n =>
      let stop := Some (add_text text start None, s) in
      let push := fun c => match start with Some p => Some (p ++ [c]) | None => if is_space c then None else Some [c] end in
      match s with
      | [] => stop
      | c :: r =>
          if c =? 0 then stop
          else if closer then skim_arg n r text (match start with Some p => Some (p ++ [c]) | None => None end) nparens (negb (c =? quote))
          else if (c =? slash) && (look r =? slash) then skim_arg n (after_line_comment r) (add_text text start (Some 32)) None nparens false
          else if (c =? slash) && (look r =? star) then skim_arg n (after_comment (tl r)) (add_text text start (Some 32)) None nparens false
          else if is_newline c then
            skim_arg n (after_newline s)
              (add_text text (match start with Some p => Some (p ++ firstn (length s - length (after_newline s)) s) | None => None end) (Some 32)) None nparens false
          else
            match (if c =? backslash then continuation s else None) with
            | Some r' => skim_arg n r' (add_text text start (Some 32)) None nparens false
            | None =>
                if c =? lparen then skim_arg n r text (push c) (S nparens) false
                else if c =? rparen then match nparens with O => stop | S m => skim_arg n r text (push c) m false end
                else if c =? quote then skim_arg n r text (push c) nparens true
                else if (c =? comma) && (nparens =? 0)%nat then stop
                else skim_arg n r text (push c) nparens false
            end
      end
  end.
Definition skim_argument (s : list Z) : option (list Z * list Z) := skim_arg (S (length s)) s [] None 0 false.

(* lexer.cpp:2672-2690: the arguments of a call, from after its parenthesis: one for each parameter, with commas between, and the
   closing parenthesis (need() passes over blanks).  None: a comma or the parenthesis is missing (which is reported). *)
Fixpoint read_args (params : list Z) (s : list Z) : option (list (Z * list Z) * list Z) :=
  match params with
  | [] => match drop_spaces s with c :: r => if c =? rparen then Some ([], r) else None | [] => None end
  | p :: ps =>
      match skim_argument s with
      | None => None
      | Some (a, s') =>
          match ps with
          | [] => match s' with c :: r => if c =? rparen then Some ([(p, a)], r) else None | [] => None end
          | _ => match s' with
                 | c :: r => if c =? comma then match read_args ps r with Some (l, r') => Some ((p, a) :: l, r') | None => None end else None
                 | [] => None
                 end
          end
      end
  end.

(* lexer.cpp:2659-2728 EnterMacro, 894-902 HandleEof: macros within macros.  Text is a list of tokens here; call m ts says whether a macro m
   takes up its arguments from ts, and if so its text with them put in, and what is left of ts.  Looking for the parenthesis of a call does
   not expand macros here. *)
Section Expansion.
Variable call : Z -> list Z -> option (list Z * list Z).

(* prev_state_ and state_, the innermost first: the macro a text is of (None: the file), and what is left to read of it. *)
Notation frame := (option Z * list Z)%type.
(* macros_in_use_ *)
Definition names (st : list frame) : list Z := flat_map (fun f => match fst f with Some m => [m] | None => [] end) st.
Definition in_use (used : list Z) (m : Z) : bool := existsb (Z.eqb m) used.

Fixpoint expand (fuel : nat) (st : list frame) (out : list Z) : option (list Z) :=
  match fuel with
  | O => None
  | S n =>
      match st with
      | [] => Some out
      | (_, []) :: r => expand n r out
      | (mm, t :: ts) :: r =>
          match (if in_use (names st) t then None else call t ts) with
          | Some (text, rest) => expand n ((Some t, text) :: (mm, rest) :: r) out
          | None => expand n ((mm, ts) :: r) (out ++ [t])
          end
      end
  end.
End Expansion.
