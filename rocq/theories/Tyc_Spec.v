(* What it means for a value of one type to be usable as another. *)
From Coq Require Import ZArith List Bool.
From Verif Require Import Tyc_Model.
Import ListNotations.
Local Open Scope Z_scope.

(* How a value of a type is handed over: nothing at all, one cell holding the
   value, two cells holding the value, or one cell holding the address of the
   value (types.cpp:106-114, code-generator.cpp:2033-2110). *)
Inductive rep := Nothing | OneCell | TwoCells | Address.
Definition rep_of (t : ty) : rep :=
  match t with
  | TBuiltin BVoid => Nothing
  | TBuiltin BInt64 => TwoCells
  | TBuiltin _ | TObject _ | TEnum _ | TMap _ _ _ | TFun _ _ => OneCell
  | TStruct _ _ | TPstruct _ | TRef _ | TArr _ _ => Address
  end.

(* The bytes one element of an array takes. *)
Definition width (t : ty) : Z :=
  match t with
  | TBuiltin BChar => 1
  | TBuiltin BInt64 => 8
  | TStruct _ cells => 4 * cells
  | _ => 4
  end.

(* The innermost elements of an array and the number of its dimensions. *)
Fixpoint elt (t : ty) : ty := match t with TArr u _ => elt u | _ => t end.
Fixpoint dims (t : ty) : nat := match t with TArr u _ => S (dims u) | _ => O end.

(* [fits a b]: whatever a program may do with an array declared as [a], it may
   do with one that is in fact [b].  There are as many dimensions, each of the
   size [a] promises if it promises one, and the elements are as wide. *)
Inductive fits : ty -> ty -> Prop :=
| fits_dim : forall a n b m, n = 0 \/ n = m -> fits a b -> fits (TArr a n) (TArr b m)
| fits_elt : forall a b, is_array a = false -> is_array b = false -> width a = width b -> fits a b.

(* The same for strings, whose last dimension may be smaller than promised. *)
Inductive fits_string : ty -> ty -> Prop :=
| fs_dim : forall a n b m, n = 0 \/ n = m -> fits_string a b -> fits_string (TArr a n) (TArr b m)
| fs_last : forall n m, n = 0 \/ m <= n ->
    fits_string (TArr (TBuiltin BChar) n) (TArr (TBuiltin BChar) m).

(* An enum struct handed to an any[] is an array of its cells. *)
Definition as_array (t : ty) : ty :=
  match t with TStruct _ cells => TArr (TBuiltin BAny) cells | _ => t end.

(* Two mentions of one type: the same declaration, or arrays of the same size
   and references of one. *)
Inductive same_type : ty -> ty -> Prop :=
| st_builtin : forall b, same_type (TBuiltin b) (TBuiltin b)
| st_object : forall n, same_type (TObject n) (TObject n)
| st_enum : forall n, same_type (TEnum n) (TEnum n)
| st_map : forall n ab nu ab' nu', same_type (TMap n ab nu) (TMap n ab' nu')
| st_struct : forall n c, same_type (TStruct n c) (TStruct n c)
| st_pstruct : forall n, same_type (TPstruct n) (TPstruct n)
| st_fun : forall n l l', same_type (TFun n l) (TFun n l')
| st_ref : forall t u, same_type t u -> same_type (TRef t) (TRef u)
| st_arr : forall t u n, same_type t u -> same_type (TArr t n) (TArr u n).

(* Types holding a number or an enumeration's value. *)
Inductive intlike : ty -> Prop :=
| il_int : intlike (TBuiltin BInt)
| il_bool : intlike (TBuiltin BBool)
| il_char : intlike (TBuiltin BChar)
| il_enum : forall n, intlike (TEnum n)
| il_map : forall n ab nu, intlike (TMap n ab nu).

(* The conversions of the language: [converts f a], a value of type [a] may be
   used where one of type [f] is wanted. *)
Inductive converts : ty -> ty -> Prop :=
| cv_same : forall f a, same_type f a -> converts f a
| cv_null : forall n ab, converts (TMap n ab true) (TBuiltin BNull)
| cv_int : forall a, intlike a -> converts (TBuiltin BInt) a
| cv_bool_int : converts (TBuiltin BBool) (TBuiltin BInt)
| cv_bool_char : converts (TBuiltin BBool) (TBuiltin BChar)
| cv_from_any : forall f, intlike f -> converts f (TBuiltin BAny)
| cv_float_any : converts (TBuiltin BFloat) (TBuiltin BAny)
| cv_any : forall a, ~ In a [TBuiltin BVoid; TBuiltin BNull; TBuiltin BInt64] ->
    converts (TBuiltin BAny) a
| cv_up : forall n ab nu m ab' nu', In n ab' -> converts (TMap n ab nu) (TMap m ab' nu')
| cv_enum_int : forall n, converts (TEnum n) (TBuiltin BInt)
| cv_map_int : forall n ab nu, converts (TMap n ab nu) (TBuiltin BInt)
| cv_char_int : converts (TBuiltin BChar) (TBuiltin BInt)
| cv_float_int : converts (TBuiltin BFloat) (TBuiltin BInt).

(* The signatures of two functions agree: what is called as [f] may be [a]. *)
Definition agree (f a : sig) : Prop :=
  let '(fret, fargs, fvar) := f in
  let '(aret, aargs, avar) := a in
  same_type fret aret /\ fvar = avar /\
  Forall2 (fun x y => check sig_flags Generic x y = Accept) fargs aargs.

(* The one case in which the arguments are not looked at. *)
Definition void_for_int (f a : sig) : Prop :=
  fst (fst f) = TBuiltin BVoid /\ fst (fst a) = TBuiltin BInt.

(* Two arrays that differ neither in the number of dimensions nor in that one
   holds cells of any type and the other 64-bit numbers. *)
Definition not_mixed (f a : ty) : Prop :=
  dims f = dims a /\
  ~ (elt f = TBuiltin BAny /\ elt a = TBuiltin BInt64) /\
  ~ (elt f = TBuiltin BInt64 /\ elt a = TBuiltin BAny).
