(* Array and enum struct initialisers: compiler/array-helpers.cpp (ArrayValidator::ValidateRank and ValidateEnumStruct
   as far as sizes and shapes go, CompoundEmitter), the data they add (data-queue.cpp) and the code of local
   declarations (code-generator.cpp:303-334, 336-432). *)
From Verif Require Import Base Small_Model.

(* Types: the ranks of an array, outermost first, 0 for a rank whose size is not known (only the last can be), and
   what it holds: plain cells ([is_int]: int, whose ellipsis may step), packed characters, 64-bit integers, or enum
   structs.  Fields of other types cannot be initialised from a list. *)
Inductive field := FCell | FCells (n : Z) | FChars (n : Z).
Inductive elem := ECell (is_int : bool) | EChar | EInt64 | EStruct (fs : list field).
(* types.cpp:106-114 CellStorageSize, name-resolution.cpp:989-993 *)
Definition field_cells (f : field) : Z := match f with FCell => 1 | FCells n => n | FChars n => char_array_cells n end.
Definition struct_cells (fs : list field) : Z := fold_right (fun f a => field_cells f + a) 0 fs.

(* A constant, a 64-bit literal, a string, or a list in braces, with a flag for a final "...". *)
Inductive init := INum (v : Z) | INum64 (v : Z) | IStr (s : list Z) | IList (l : list init) (ellipses : bool).

(* ---- ArrayValidator (array-helpers.cpp:563-768): which initialisers are accepted; types of constants and the limit
   on the total size are not modelled ---- *)
Definition is_num (i : init) : bool := match i with INum _ => true | _ => false end.
Definition is_const (e : elem) (i : init) : bool := match i with INum _ => true | INum64 _ => match e with EInt64 => true | _ => false end | _ => false end.
(* 628-720, for a list; [n] is the declared size in cells *)
Definition valid_list (e : elem) (n : Z) (l : list init) (ellipses : bool) : bool :=
  forallb (is_const e) l && ((n =? 0) || (Z.of_nat (length l) <=? n)) &&
  (negb ellipses ||
   (negb (Z.of_nat (length l) =? 0) && negb (existsb is_num (removelast l) && match e with ECell true => false | _ => true end) &&
    negb (n =? 0) && (Z.of_nat (length l) <? n))).
(* 722-768 *)
Fixpoint valid_fields (fs : list field) (l : list init) : bool :=
  match l, fs with
  | [], _ => true
  | _ :: _, [] => false
  | i :: l', f :: fs' =>
      match f, i with
      | FCell, INum _ => true
      | FCells n, IList il ell => valid_list (ECell true) n il ell
      | FChars n, IList il ell => valid_list EChar (char_array_cells n) il ell
      | FChars n, IStr s => Z.of_nat (length s) + 1 <=? n
      | _, _ => false
      end && valid_fields fs' l'
  end.
Definition valid_struct (fs : list field) (i : init) : bool :=
  match i with IList l ell => valid_fields fs l && negb ell | _ => false end.
Fixpoint valid_rank (dims : list Z) (e : elem) (i : init) : bool :=
  match dims with
  | [] => false
  | [n] =>
      match i, e with
      | IStr s, EChar => (n =? 0) || (Z.of_nat (length s) + 1 <=? n)
      | IList l ell, EStruct fs => forallb (valid_struct fs) l
      | IList l ell, EChar => valid_list e (if n =? 0 then 0 else char_array_cells n) l ell
      | IList l ell, _ => valid_list e n l ell
      | _, _ => false
      end
  | n :: rest => match i with IList l _ => (Z.of_nat (length l) =? n) && forallb (valid_rank rest e) l | _ => false end
  end.
(* 610-626: "int x[10] = 5"; with one element the ellipsis is without effect and left out here (708 lets it pass) *)
Definition rewrite_scalar (dims : list Z) (i : init) : init :=
  match dims, i with [n], INum v => IList [INum v] (1 <? n) | _, _ => i end.
(* 440-485: without an initialiser every size must be given. *)
Definition valid (dims : list Z) (e : elem) (i : option init) : bool :=
  match i with Some i => valid_rank dims e i | None => forallb (fun n => 0 <? n) dims end.

(* ---- CompoundEmitter (array-helpers.cpp:833-1079) ---- *)
Record est := mkEs { e_iv : list Z; e_data : list Z; e_zeroes : nat }.
Definition data_size (s : est) : nat := length (e_data s) + e_zeroes s.                       (* 851-853 *)
Definition add_data (v : Z) (s : est) : est :=                                                (* 1066-1079 *)
  if v =? 0 then mkEs (e_iv s) (e_data s) (S (e_zeroes s))
  else mkEs (e_iv s) (e_data s ++ repeat 0 (e_zeroes s) ++ [v]) 0.
Definition add_all (vs : list Z) (s : est) : est := fold_left (fun s v => add_data v s) vs s.
Definition add_zeroes (n : nat) (s : est) : est := mkEs (e_iv s) (e_data s) (e_zeroes s + n).
(* 1054-1064; the values of litadd_str are converted to cell *)
Definition add_string (str : list Z) (s : est) : est := add_all (map wrap32 (StringToCells str)) s.
(* Int64CellUnion: low cell first *)
Definition halves (v : Z) : list Z := [wrap32 v; wrap32 (v / two32)].

(* EmitPadding, 1025-1052.  [None]: prev1 is read though there is none (assert, or an uninitialised value).
   [scale]: what the type makes of the rank size. *)
Inductive scale := Plain | Chars | Structs (size : Z).
Definition scaled (k : scale) (n : Z) : Z := match k with Plain => n | Chars => char_array_cells n | Structs z => n * z end.
Fixpoint steps (n : nat) (next step : Z) : list Z :=
  match n with O => [] | S n' => next :: steps n' (wrap32 (next + step)) step end.
Definition EmitPadding (n : Z) (k : scale) (emitted : nat) (ellipses : bool) (prev1 prev2 : option Z) (s : est) : option est :=
  let n := Z.to_nat (scaled k n) in
  if (emitted <? n)%nat then
    if ellipses then
      match prev1 with
      | None => None
      | Some p1 =>
          let step := match prev2 with Some p2 => wrap32 (p1 - p2) | None => 0 end in
          Some (add_all (steps (n - emitted) (wrap32 (p1 + step)) step) s)
      end
    else Some (add_zeroes (n - emitted) s)
  else Some s.

(* The constants of a list with what prev1 and prev2 become; [None]: an item that is not a constant (assert). *)
Fixpoint emit_consts (e : elem) (l : list init) (prev1 prev2 : option Z) (s : est) : option (est * option Z * option Z) :=
  match l with
  | [] => Some (s, prev1, prev2)
  | INum64 v :: r => emit_consts e r prev1 prev2 (add_all (halves v) s)                       (* 938-941 *)
  | INum v :: r =>                                                                            (* 942-952 *)
      emit_consts e r (Some v) prev1 (add_all (match e with EInt64 => halves v | _ => [v] end) s)
  | _ => None
  end.
(* AddInlineEnumStruct and AddInlineArray, 979-1023 *)
Fixpoint emit_fields (fs : list field) (l : list init) (s : est) : option est :=
  match l, fs with
  | [], _ => Some s
  | _ :: _, [] => None
  | i :: l', f :: fs' =>
      match
        match i with
        | IStr str =>
            let s' := add_string str s in
            match f with
            | FCell => None
            | FCells n => EmitPadding n Plain (data_size s' - data_size s) false None None s'
            | FChars n => EmitPadding n Chars (data_size s' - data_size s) false None None s'
            end
        | IList il ell =>
            match f, forallb is_num il with
            | FCell, _ => None
            | FCells n, true | FChars n, true =>      (* 1021: the field's type is the array's, not that of its elements *)
                match emit_consts (ECell true) il None None s with
                | Some (s', p1, p2) => EmitPadding n Plain (length il) ell p1 p2 s'
                | None => None
                end
            | _, false => None
            end
        | INum v => Some (add_data v s)
        | INum64 _ => None
        end
      with Some s' => emit_fields fs' l' s' | None => None end
  end.
Definition emit_struct (fs : list field) (i : init) (s : est) : option est :=
  match i with
  | IList l _ =>
      match emit_fields fs l s with
      | Some s' => Some (add_zeroes (Z.to_nat (struct_cells fs) - (data_size s' - data_size s)) s')
      | None => None
      end
  | _ => None
  end.
Fixpoint emit_structs (fs : list field) (l : list init) (s : est) : option est :=
  match l with
  | [] => Some s
  | i :: r => match emit_struct fs i s with Some s' => emit_structs fs r s' | None => None end
  end.

Definition kDataFlag : Z := two31.
(* A last rank, 922-977.  The flag is bit 31: the cell is negative. *)
Definition scale_of (e : elem) : scale := match e with EChar => Chars | EStruct fs => Structs (struct_cells fs) | _ => Plain end.
Definition emit_leaf (n : Z) (e : elem) (i : option init) (s : est) : option (Z * est) :=
  let start := data_size s in
  match
    match i with
    | None => Some (s, false, None, None)
    | Some (IStr str) => Some (add_string str s, false, None, None)
    | Some (IList l ell) =>
        match e with
        | EStruct fs => match emit_structs fs l s with Some s' => Some (s', ell, None, None) | None => None end
        | _ => match emit_consts e l None None s with Some (s', p1, p2) => Some (s', ell, p1, p2) | None => None end
        end
    | Some _ => None
    end
  with
  | Some (s', ell, p1, p2) =>
      match EmitPadding n (scale_of e) (data_size s' - start) ell p1 p2 s' with
      | Some s'' => Some (4 * Z.of_nat start - kDataFlag, s'')
      | None => None
      end
  | None => None
  end.
Fixpoint set_at (k : nat) (v : Z) (l : list Z) : list Z :=
  match l, k with [], _ => [] | _ :: r, O => v :: r | x :: r, S k' => x :: set_at k' v r end.
Definition set_iv (k : nat) (v : Z) (s : est) : est := mkEs (set_at k v (e_iv s)) (e_data s) (e_zeroes s).
(* Emit of a rank, 894-977 *)
Fixpoint emit_children (emit : option init -> est -> option (Z * est)) (child : nat -> option init) (start i n : nat) (s : est) : option est :=
  match n with
  | O => Some s
  | S n' =>
      match emit (child i) s with
      | Some (a, s') => emit_children emit child start (S i) n' (set_iv (start + i) a s')
      | None => None
      end
  end.
Fixpoint emit_rank (dims : list Z) (e : elem) (i : option init) (s : est) : option (Z * est) :=
  match dims with
  | [] => None
  | [n] => emit_leaf n e i s
  | n :: rest =>
      let start := length (e_iv s) in
      let child := fun k => match i with Some (IList l _) => nth_error l k | _ => None end in
      match emit_children (emit_rank rest e) child start 0 (Z.to_nat n) (mkEs (e_iv s ++ repeat 0 (Z.to_nat n)) (e_data s) (e_zeroes s)) with
      | Some s' => Some (4 * Z.of_nat start, s')
      | None => None
      end
  end.
(* Emit(), 874-892, and the base of BuildCompoundInitializer, 1091-1096 *)
Definition adjust (niv : nat) (base v : Z) : Z := wrap32 (base + (if v <? 0 then v + kDataFlag + 4 * Z.of_nat niv else v)).
Definition relocate (base : Z) (s : est) : est :=
  mkEs (map (adjust (length (e_iv s)) base) (e_iv s)) (e_data s) (e_zeroes s).
Definition BuildCompoundInitializer (dims : list Z) (e : elem) (i : option init) (base : Z) : option est :=
  match emit_rank dims e i (mkEs [] [] 0) with Some (_, s) => Some (relocate base s) | None => None end.
(* An enum struct that is not in an array, 875-879 *)
Definition BuildStructInitializer (fs : list field) (i : option init) : option est :=
  match (match i with Some i => emit_struct fs i (mkEs [] [] 0) | None => Some (mkEs [] [] 0) end) with
  | Some s => EmitPadding 1 (Structs (struct_cells fs)) (data_size s) false None None s
  | None => None
  end.

(* ---- Globals (code-generator.cpp:303-334): the data section, in cells, grows by the whole array ---- *)
Definition cells_of (s : est) : list Z := e_iv s ++ e_data s ++ repeat 0 (e_zeroes s).
Definition EmitGlobalArray (dims : list Z) (e : elem) (i : option init) (data : list Z) : option (list Z) :=
  match BuildCompoundInitializer dims e i (4 * Z.of_nat (length data)) with
  | Some s => Some (data ++ cells_of s)
  | None => None
  end.
(* ---- Locals (code-generator.cpp:372-416): what is added to the data section; the operand of HEAP; and the operands
   address, iv, copy and fill of INITARRAY_ALT ---- *)
Definition EmitLocalArray (dims : list Z) (e : elem) (i : option init) (autozero : bool) (data : list Z)
  : option (list Z * Z * (Z * Z * Z * Z)) :=
  match BuildCompoundInitializer dims e i 0 with
  | Some s =>
      let iv_size := Z.of_nat (length (e_iv s)) in
      let dsize := Z.of_nat (length (e_data s)) + Z.of_nat (e_zeroes s) in
      let small := (e_zeroes s <? 16)%nat in
      let data' := data ++ e_iv s ++ e_data s ++ (if small then repeat 0 (e_zeroes s) else []) in
      let zeroes := if small then 0 else Z.of_nat (e_zeroes s) in
      let non_filled := dsize - zeroes in
      let fill := if negb autozero && negb (zeroes =? 0) then 0 else zeroes in
      Some (data', 4 * (iv_size + dsize), (4 * Z.of_nat (length data), iv_size, non_filled, fill))
  | None => None
  end.
