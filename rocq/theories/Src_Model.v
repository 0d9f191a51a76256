(* Source positions: compiler/source-location.h, compiler/source-manager.{h,cpp}, compiler/source-file.cpp.
   Positions are 32-bit words.  Files are given with their contents and the index they were opened
   with; opening, reading and comparing paths are not modelled.  A text of a macro is given by its
   length. *)
From Verif Require Import Base.

(* [Wild]: a pointer that was never set is followed.  [AssertFails]: an assertion of a debug build. *)
Inductive outcome (A : Type) := Done (a : A) | AssertFails | Wild | NoFuel.
Arguments Done {A}. Arguments AssertFails {A}. Arguments Wild {A}. Arguments NoFuel {A}.

(* compiler/source-location.h:36-46, 75-77. *)
Definition kInMacro : Z := 2147483648.
Definition FromFile (id off : Z) : Z := u32 (id + off).
Definition FromMacro (id off : Z) : Z := Z.lor (u32 (id + off)) kInMacro.
Definition offset (loc : Z) : Z := Z.land loc (two32 - 1 - kInMacro).
Definition IsInMacro (loc : Z) : bool := negb (Z.land loc kInMacro =? 0).

(* compiler/source-manager.h:61-149; the union of file_ and text_ is [body]. *)
Inductive body := Unset | FileBody (index : Z) (data : list Z) | TextBody (len : Z).
Record range := { rid : Z; parent : Z; expansion : Z; held : body }.
Definition is_macro (r : range) : bool := negb (expansion r =? 0).
(* 107-113.  The pointer is a file's or a text's depending on the expansion location. *)
Definition rlength (r : range) : Z :=
  if rid r =? 0 then 0
  else match held r with FileBody _ d => u32 (Z.of_nat (length d)) | TextBody n => u32 n | Unset => 0 end.
(* 115-121. *)
Definition owns (r : range) (loc : Z) : bool :=
  negb (loc =? 0) && ((rid r <=? offset loc) && (offset loc <=? u32 (rid r + rlength r))).
(* 123-138: FilePos, MacroPos, ToOffset. *)
Definition Pos (r : range) (off : Z) : Z := if is_macro r then FromMacro (rid r) off else FromFile (rid r) off.
Definition ToOffset (r : range) (loc : Z) : outcome Z :=
  if owns r loc then Done (u32 (offset loc - rid r)) else AssertFails.

(* compiler/source-manager.h:192-206 and the constructor, source-manager.cpp:33-37. *)
Definition empty_range : range := {| rid := 0; parent := 0; expansion := 0; held := Unset |}.
Record manager := { ranges : list range; next_id : Z; last_lookup : nat }.
Definition initial : manager := {| ranges := [empty_range]; next_id := 1; last_lookup := 0 |}.

(* SourceManager::TrackExtents, source-manager.cpp:98-119, followed by LocationRange::init in EnterFile
   (73-82) and EnterMacro (84-96); None: error 422 was reported. *)
Definition TrackExtents (s : manager) (len : Z) : option Z :=
  let n := next_id s + u32 len in
  if negb (n <? two32) then None
  else if negb (n + 2 <? two32) then None
  else if n + 2 >? 2147483647 then None else Some (n + 2).
Definition enter (s : manager) (len : Z) (mk : Z -> range) : option manager :=
  match TrackExtents s len with
  | None => None
  | Some n => Some {| ranges := ranges s ++ [mk (next_id s)]; next_id := n; last_lookup := last_lookup s |}
  end.
Definition EnterFile (s : manager) (index : Z) (data : list Z) (from : Z) : option manager :=
  enter s (Z.of_nat (length data)) (fun id => {| rid := id; parent := from; expansion := 0; held := FileBody index data |}).
Definition EnterMacro (s : manager) (from exp : Z) (len : Z) : outcome (option manager) :=
  if exp =? 0 then AssertFails
  else Done (enter s len (fun id => {| rid := id; parent := from; expansion := exp; held := TextBody len |})).

Definition range_at (s : manager) (k : nat) : range := nth k (ranges s) empty_range.
Definition remember (s : manager) (k : nat) : manager :=
  {| ranges := ranges s; next_id := next_id s; last_lookup := k |}.

(* SourceManager::FindLocRangeSlow, source-manager.cpp:125-151. *)
Fixpoint bisect (fuel : nat) (s : manager) (loc : Z) (lower upper : nat) : outcome (nat * manager) :=
  if negb (lower <? upper)%nat then AssertFails
  else match fuel with
  | O => NoFuel
  | S n =>
    let mid := ((lower + upper) / 2)%nat in
    let r := range_at s mid in
    if offset loc <? rid r then bisect n s loc lower mid
    else if offset loc >? u32 (u32 (rid r + rlength r) + 1) then bisect n s loc (mid + 1) upper
    else if owns r loc then Done (mid, remember s mid) else AssertFails
  end.
Definition FindLocRangeSlow (s : manager) (loc : Z) : outcome (nat * manager) :=
  if loc =? 0 then AssertFails
  else if owns (range_at s (last_lookup s)) loc then Done (last_lookup s, s)
  else bisect (length (ranges s)) s loc 1 (length (ranges s)).
(* SourceManager::FindLocRange, source-manager.h:181-185. *)
Definition FindLocRange (s : manager) (loc : Z) : outcome (nat * manager) :=
  if owns (range_at s (last_lookup s)) loc then Done (last_lookup s, s) else FindLocRangeSlow s loc.

(* SourceManager::FindSourceFileRangeIndex, source-manager.cpp:153-171: the index and the location in
   that file. *)
Fixpoint climb (fuel : nat) (s : manager) (k : nat) (loc : Z) : outcome (nat * Z * manager) :=
  if negb (k =? 0)%nat && is_macro (range_at s k)
  then match fuel with
       | O => NoFuel
       | S n => match FindLocRange s (expansion (range_at s k)) with
                | Done (k', s') => climb n s' k' (expansion (range_at s k))
                | AssertFails => AssertFails | Wild => Wild | NoFuel => NoFuel
                end
       end
  else match held (range_at s k) with
       | FileBody _ _ => Done (k, loc, s)
       | _ => Wild
       end.
Definition FindSourceFileRangeIndex (s : manager) (loc : Z) : outcome (nat * Z * manager) :=
  match FindLocRange s loc with
  | Done (k, s') => if (k =? 0)%nat then Done (0%nat, 0, s') else climb (length (ranges s)) s' k loc
  | AssertFails => AssertFails | Wild => Wild | NoFuel => NoFuel
  end.
(* SourceManager::GetSourceFileIndex, source-manager.cpp:173-178. *)
Definition GetSourceFileIndex (s : manager) (loc : Z) : outcome (Z * manager) :=
  match FindSourceFileRangeIndex s loc with
  | Done (k, _, s') => if (k =? 0)%nat then Done (0, s')
                       else match held (range_at s' k) with FileBody i _ => Done (i, s') | _ => Wild end
  | AssertFails => AssertFails | Wild => Wild | NoFuel => NoFuel
  end.

(* SourceFile::ComputeLineExtents, source-file.cpp:91-113. *)
Fixpoint extents_from (data : list Z) (i : Z) : list Z :=
  match data with
  | [] => []
  | c :: r =>
    if negb (c =? 13) && negb (c =? 10) then extents_from r (i + 1)
    else if c =? 13
    then match r with
         | d :: r' => if d =? 10 then (i + 2) :: extents_from r' (i + 2) else (i + 1) :: extents_from r (i + 1)
         | [] => [i + 1]
         end
    else (i + 1) :: extents_from r (i + 1)
  end.
Definition line_extents (data : list Z) : list Z := 0 :: extents_from data 0.

(* SourceFile::OffsetToLineAndCol, source-file.cpp:115-156; None: false was returned. *)
Fixpoint find_line (fuel : nat) (data ext : list Z) (off : Z) (lower upper : nat) : outcome (option (Z * Z)) :=
  if negb (lower <? upper)%nat then AssertFails
  else match fuel with
  | O => NoFuel
  | S n =>
    let index := ((lower + upper) / 2)%nat in
    let line_start := nth index ext 0 in
    if off <? line_start then find_line n data ext off lower index
    else
      let line_end := if (index <? length ext - 1)%nat then nth (index + 1) ext 0 else Z.of_nat (length data) in
      if off >=? line_end then find_line n data ext off (index + 1) upper
      else Done (Some (Z.of_nat index + 1, u32 (off - line_start + 1)))
  end.
Definition OffsetToLineAndCol (data : list Z) (off : Z) : outcome (option (Z * Z)) :=
  if off >? Z.of_nat (length data) then Done None
  else let ext := line_extents data in
  if off =? Z.of_nat (length data) then Done (Some (Z.of_nat (length ext), 0))
  else find_line (length ext) data ext off 0 (length ext).

(* SourceFile::OffsetOfLine and GetLine, source-file.cpp:158-184. *)
Definition OffsetOfLine (data : list Z) (line : Z) : option Z :=
  let ext := line_extents data in
  let i := u32 (line - 1) in
  if i >? Z.of_nat (length ext) then None
  else if i =? Z.of_nat (length ext) then Some (Z.of_nat (length data)) else Some (nth (Z.to_nat i) ext 0).
Definition GetLine (data : list Z) (line : Z) : list Z :=
  match OffsetOfLine data line with
  | None => []
  | Some off =>
    let fin := match OffsetOfLine data (u32 (line + 1)) with None => Z.of_nat (length data) | Some e => e end in
    firstn (Z.to_nat (u32 (fin - off))) (skipn (Z.to_nat off) data)
  end.

(* SourceManager::GetLineAndCol, source-manager.cpp:180-203: line and column, 0 for none. *)
Definition GetLineAndCol (s : manager) (loc : Z) : outcome (Z * Z * manager) :=
  if loc =? 0 then Done (0, 0, s)
  else match FindSourceFileRangeIndex s loc with
  | Done (k, at_, s') =>
    if (k =? 0)%nat then Done (0, 0, s')
    else match held (range_at s' k) with
    | FileBody _ data =>
      match ToOffset (range_at s' k) at_ with
      | Done off => match OffsetToLineAndCol data off with
                    | Done (Some (l, c)) => Done (l, c, s')
                    | Done None => Done (0, 0, s')
                    | AssertFails => AssertFails | Wild => Wild | NoFuel => NoFuel
                    end
      | AssertFails => AssertFails | Wild => Wild | NoFuel => NoFuel
      end
    | _ => Wild
    end
  | AssertFails => AssertFails | Wild => Wild | NoFuel => NoFuel
  end.

(* The compiler's use (compiler/lexer.cpp:1648-1655, 2543-2547, 2659-2715): ranges are entered; a macro
   is expanded at the position of a token of an earlier range; positions are looked up in between.
   A place is the number of an entered range, counting from 1, and an offset in it. *)
Definition place := (nat * Z)%type.
Inductive event :=
| Include (index : Z) (data : list Z) (from : Z)
| Expand (from : Z) (at_ : place) (len : Z)
| AskFile (at_ : place)
| AskLine (at_ : place).
Definition position (s : manager) (p : place) : Z := Pos (range_at s (fst p)) (snd p).
Definition do_event (s : manager) (e : event) : outcome manager :=
  match e with
  | Include i d f => Done (match EnterFile s i d f with Some s' => s' | None => s end)
  | Expand f p n => match EnterMacro s f (position s p) n with
                    | Done (Some s') => Done s' | Done None => Done s
                    | AssertFails => AssertFails | Wild => Wild | NoFuel => NoFuel end
  | AskFile p => match GetSourceFileIndex s (position s p) with
                 | Done (_, s') => Done s'
                 | AssertFails => AssertFails | Wild => Wild | NoFuel => NoFuel end
  | AskLine p => match GetLineAndCol s (position s p) with
                 | Done (_, _, s') => Done s'
                 | AssertFails => AssertFails | Wild => Wild | NoFuel => NoFuel end
  end.
Fixpoint run (h : list event) (s : manager) : outcome manager :=
  match h with
  | [] => Done s
  | e :: h' => match do_event s e with Done s' => run h' s' | AssertFails => AssertFails | Wild => Wild | NoFuel => NoFuel end
  end.
