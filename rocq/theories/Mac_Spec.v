(* What a macro call stands for: the macro's text with each parameter %n replaced by the argument given for it, and #%n by the argument in
   quotes; what stands in string and character literals is not touched. *)
From Verif Require Import Base Mac_Model.

Inductive piece := Char (c : Z) | Param (n : Z) | Quoted (n : Z).

Definition is_quote (c : Z) : bool := (c =? quote) || (c =? apostrophe).
(* Reading a macro's text: in a literal (lit = Some q) up to its closing quote q, a backslash taking the next character with it. *)
Fixpoint pieces (lit : option Z) (s : list Z) : list piece :=
  match s with
  | [] => []
  | c :: r =>
      match lit with
      | Some q =>
          if c =? backslash then match r with d :: r' => Char c :: Char d :: pieces lit r' | [] => [Char c] end
          else Char c :: pieces (if c =? q then None else lit) r
      | None =>
          match r with
          | d :: r' =>
              if (c =? percent) && is_digit d then Param (d - 48) :: pieces None r'
              else match r' with
                   | e :: r'' => if (c =? hash) && (d =? percent) && is_digit e then Quoted (e - 48) :: pieces None r''
                                 else Char c :: pieces (if is_quote c then Some c else None) r
                   | [] => Char c :: pieces (if is_quote c then Some c else None) r
                   end
          | [] => [Char c]
          end
      end
  end.

Definition render1 (args : list (Z * list Z)) (p : piece) : list Z :=
  match p with
  | Char c => [c]
  | Param n => match lookup args n with Some a => a | None => [percent; n + 48] end
  | Quoted n => match lookup args n with Some a => quote :: a ++ [quote] | None => [hash; percent; n + 48] end
  end.
Definition render (args : list (Z * list Z)) (l : list piece) : list Z := flat_map (render1 args) l.

(* A plain text for a macro: one line, no comment, no backslash outside literals, literals closed; and no two backslashes on end in one (see
   the refutation). *)
Fixpoint tidy (lit : option Z) (s : list Z) : bool :=
  match s with
  | [] => match lit with None => true | Some _ => false end
  | c :: r =>
      negb (c =? 0) && negb (is_newline c) &&
      match lit with
      | Some q =>
          if c =? backslash then
            match r with d :: r' => negb (d =? backslash) && negb (d =? 0) && negb (is_newline d) && tidy lit r' | [] => false end
          else tidy (if c =? q then None else lit) r
      | None => negb (c =? backslash) && negb ((c =? slash) && ((look r =? slash) || (look r =? star))) && tidy (if is_quote c then Some c else None) r
      end
  end.

(* A text neither beginning nor ending in a blank. *)
Definition trimmed (s : list Z) : Prop := is_space (look s) = false /\ is_space (look (rev s)) = false.
Definition blank (s : list Z) : Prop := Forall (fun c => is_space c = true /\ is_newline c = false) s.
(* Every parameter the text names has an argument. *)
Definition supplied (args : list (Z * list Z)) (p : piece) : Prop :=
  match p with Char _ => True | Param n | Quoted n => lookup args n <> None end.

(* A plain argument: parentheses balanced, commas only within them or in strings, and no comment, line end, backslash or NUL. *)
Fixpoint argument (str : bool) (d : nat) (s : list Z) : bool :=
  match s with
  | [] => negb str && (d =? 0)%nat
  | c :: r =>
      negb (c =? 0) && negb (is_newline c) && negb (c =? backslash) &&
      (if str then argument (negb (c =? quote)) d r
       else negb ((c =? slash) && ((look r =? slash) || (look r =? star))) &&
            if c =? lparen then argument false (S d) r
            else if c =? rparen then match d with O => false | S m => argument false m r end
            else if c =? comma then negb (d =? 0)%nat && argument false d r
            else argument (c =? quote) d r)
  end.
(* The arguments as they are written in a call. *)
Fixpoint call_text (l : list (list Z)) : list Z :=
  match l with [] => [rparen] | [a] => a ++ [rparen] | a :: r => a ++ comma :: call_text r end.

(* A text with its macros expanded: a macro not in use is replaced by its text, expanded with the macro in use; other tokens stay. *)
Inductive expands (call : Z -> list Z -> option (list Z * list Z)) : list Z -> list Z -> list Z -> Prop :=
| x_end : forall used, expands call used [] []
| x_word : forall used t ts out, In t used \/ call t ts = None -> expands call used ts out -> expands call used (t :: ts) (t :: out)
| x_macro : forall used t ts text rest o1 o2, ~ In t used -> call t ts = Some (text, rest) ->
    expands call (t :: used) text o1 -> expands call used rest o2 -> expands call used (t :: ts) (o1 ++ o2).

(* What may stand between the parts of a macro's text or of an argument: a comment, or the end of a continued line. *)
Inductive gap := Comment (body : list Z) | Continued (blanks nl : list Z).
Fixpoint no_close (s : list Z) : bool :=
  match s with c :: r => negb ((c =? star) && (look r =? slash)) && no_close r | [] => true end.
Definition gap_text (g : gap) : list Z :=
  match g with Comment b => slash :: star :: b ++ [star; slash] | Continued w nl => backslash :: w ++ nl end.
Definition gap_ok (g : gap) : Prop :=
  match g with Comment b => no_close (b ++ [star]) = true | Continued w nl => blank w /\ (nl = [10] \/ nl = [13; 10]) end.
Fixpoint glue (parts : list (list Z * gap)) (final : list Z) : list Z :=
  match parts with [] => final | (s, g) :: r => s ++ gap_text g ++ glue r final end.
(* A gap stands for a blank. *)
Definition with_blank (t : list Z) : list Z := if look (rev t) =? 32 then t else t ++ [32].
Fixpoint joined (acc : list Z) (parts : list (list Z * gap)) (final : list Z) : list Z :=
  match parts with
  | [] => acc ++ drop_spaces final
  | (s, _) :: r => joined (match drop_spaces s with [] => acc | p => with_blank (acc ++ p) end) r final
  end.
Definition part_ok (p : list Z * gap) : Prop := tidy None (fst p) = true /\ look (rev (fst p)) <> slash /\ gap_ok (snd p).

(* Plain text within an argument, from one depth of parentheses to another, not ending within a string. *)
Fixpoint through (str : bool) (d : nat) (s : list Z) : option nat :=
  match s with
  | [] => if str then None else Some d
  | c :: r =>
      if (c =? 0) || is_newline c || (c =? backslash) then None
      else if str then through (negb (c =? quote)) d r
      else if (c =? slash) && ((look r =? slash) || (look r =? star)) then None
      else if c =? lparen then through false (S d) r
      else if c =? rparen then match d with O => None | S m => through false m r end
      else if (c =? comma) && (d =? 0)%nat then None
      else through (c =? quote) d r
  end.
(* An argument with comments and continued lines in it. *)
Fixpoint argument_parts (d : nat) (parts : list (list Z * gap)) (final : list Z) : Prop :=
  match parts with
  | [] => through false d final = Some O
  | (s, g) :: r => look (rev s) <> slash /\ gap_ok g /\ exists d', through false d s = Some d' /\ argument_parts d' r final
  end.
