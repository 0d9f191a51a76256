(* The type checker: which types may stand for which.
   /repo/compiler/type-checker.cpp, /repo/compiler/types.h. *)
From Coq Require Import ZArith List Bool.
Import ListNotations.
Local Open Scope Z_scope.

(* types.h: BuiltinType. *)
Inductive builtin := BInt | BFloat | BBool | BAny | BVoid | BNull | BChar | BInt64.

(* types.h:170-420 Type, by its kind.  A declared type is named by a number.
   A methodmap carries the numbers of the methodmaps it inherits from, nearest
   first, and whether null may be stored in it (methodmap_ptr_, parent(),
   nullable()); an enum struct its size in cells (array_size()); a function
   type its list of signatures, none for the type Function itself
   (funcenum_ptr_).  Typedefs are resolved before the checker sees a type.
   The signature's const qualifiers are left out. *)
Inductive ty :=
| TBuiltin (b : builtin)
| TObject (n : Z)
| TEnum (n : Z)
| TMap (n : Z) (above : list Z) (nullable : bool)
| TStruct (n : Z) (cells : Z)
| TPstruct (n : Z)
| TFun (n : Z) (sigs : option (list (ty * list ty * bool)))
| TRef (t : ty)
| TArr (t : ty) (size : Z).

(* A signature: return type, argument types, variadic (types.h FunctionType). *)
Notation sig := (ty * list ty * bool)%type.

Definition builtin_eqb (a b : builtin) : bool :=
  match a, b with
  | BInt, BInt | BFloat, BFloat | BBool, BBool | BAny, BAny | BVoid, BVoid
  | BNull, BNull | BChar, BChar | BInt64, BInt64 => true
  | _, _ => false
  end.

(* Equality of types is equality of pointers.  Arrays and references are kept
   in caches (types.cpp:181-203, 287-300), so that for them it is equality of
   what they are built from; the others are equal when they are the same
   declaration. *)
Fixpoint same (a b : ty) : bool :=
  match a, b with
  | TBuiltin x, TBuiltin y => builtin_eqb x y
  | TObject n, TObject m => n =? m
  | TEnum n, TEnum m => n =? m
  | TMap n _ _, TMap m _ _ => n =? m
  | TStruct n c, TStruct m d => (n =? m) && (c =? d)
  | TPstruct n, TPstruct m => n =? m
  | TFun n _, TFun m _ => n =? m
  | TRef t, TRef u => same t u
  | TArr t n, TArr u m => (n =? m) && same t u
  | _, _ => false
  end.

(* types.h:248-345: the tests of a type's kind. *)
Definition is_b (b : builtin) (t : ty) : bool :=
  match t with TBuiltin x => builtin_eqb x b | _ => false end.
Definition is_array (t : ty) : bool := match t with TArr _ _ => true | _ => false end.
Definition is_struct (t : ty) : bool := match t with TStruct _ _ => true | _ => false end.
Definition is_enum (t : ty) : bool := match t with TEnum _ => true | _ => false end.
Definition is_map (t : ty) : bool := match t with TMap _ _ _ => true | _ => false end.
Definition is_fun (t : ty) : bool := match t with TFun _ _ => true | _ => false end.
(* types.h:292-294 isObject: null counts as one. *)
Definition is_object (t : ty) : bool :=
  match t with TObject _ => true | _ => is_b BNull t end.
(* types.h:266 hasCellSize. *)
Definition has_cell_size (t : ty) : bool := negb (is_b BChar t) && negb (is_struct t).
(* types.h:272-284 coercesFromInt. *)
Definition coerces_from_int (t : ty) : bool :=
  is_enum t || is_map t || is_b BBool t || is_b BChar t || is_b BInt t.
(* types.cpp:102-104 isCharArray, of an array with elements [t]. *)
Definition is_char_array (elt : ty) : bool := is_b BChar elt.
(* types.h:299-301 isCanonicalFunction. *)
Definition is_canonical (t : ty) : bool := match t with TFun _ None => true | _ => false end.

(* expressions.cpp:238-248 HasTagOnInheritanceChain. *)
Definition on_chain (t other : ty) : bool :=
  match t, other with
  | TMap n above _, TMap m _ _ => (m =? n) || existsb (Z.eqb m) above
  | _, _ => false
  end.

(* type-checker.h:33-48.  Commutative is handled by [check] alone. *)
Inductive context := Assignment | Argument | Return | Generic.
Record flags := { commutative : bool; func_arg : bool; enum_assign : bool;
                  allow_coerce : bool; ternary : bool }.

(* [Broken] is a failed assertion: types.h:308 in toFunction. *)
Inductive verdict := Accept | Refuse | Broken.
Definition vb (b : bool) : verdict := if b then Accept else Refuse.

(* type-checker.cpp:189-247 CheckArrays, the loop and what follows it. *)
Fixpoint check_arrays (fl : flags) (why : context) (fi : ty) (fn : Z) (ai : ty) (an : Z)
    {struct fi} : bool :=
  let size_ok :=
    if fn =? 0 then true
    else if (allow_coerce fl || ternary fl) && is_char_array ai
         then ternary fl || negb (fn <? an)
         else fn =? an in
  size_ok &&
  match fi with
  | TArr fi' fn' =>
    match ai with
    | TArr ai' an' => check_arrays fl why fi' fn' ai' an'
    | _ => false
    end
  | _ =>
    same fi ai
    || func_arg fl && (is_b BAny fi && has_cell_size ai || is_b BAny ai && has_cell_size fi)
    || match why with Argument => allow_coerce fl | _ => false end
       && ((is_enum ai || is_map ai) && is_b BInt fi
           || is_b BAny fi && has_cell_size ai
           || is_b BAny ai && has_cell_size fi)
  end.

(* type-checker.cpp:170-188 CheckArrays when the actual type is no array. *)
Definition check_slice (fl : flags) (why : context) (fi : ty) (fn : Z) (actual : ty) : bool :=
  match why with Argument => allow_coerce fl | _ => false end
  && negb (is_array fi)
  && match actual with
     | TStruct _ cells => ((fn =? 0) || (fn =? cells)) && is_b BAny fi
     | _ => false
     end.

(* type-checker.cpp:92-168 CheckValueType; [func] is what CheckFunction
   answers. *)
Definition check_value (fl : flags) (func : verdict) (formal actual : ty) : verdict :=
  if is_struct formal then vb (same formal actual)
  else if same formal actual then Accept
  else if is_object formal then Refuse
  else if is_b BNull actual then
    match formal with
    | TMap _ _ nullable => vb nullable
    | TFun _ _ => Accept
    | _ => Refuse
    end
  else if is_b BInt64 formal || is_b BInt64 actual then Refuse
  else if allow_coerce fl
       && ((is_b BInt formal || is_b BAny formal) && coerces_from_int actual
           || is_b BBool formal && (is_b BInt actual || is_b BChar actual)
           || is_b BAny actual && (coerces_from_int formal || is_b BFloat formal))
  then Accept
  else if is_b BAny formal then vb (negb (is_b BVoid actual))
  else if is_fun formal then func
  else if (allow_coerce fl || func_arg fl) && on_chain actual formal then Accept
  else if func_arg fl && on_chain formal actual then Accept
  else if (is_enum formal || is_map formal) && is_b BInt actual then Accept
  else if allow_coerce fl && (is_b BChar formal || is_b BFloat formal) && is_b BInt actual
  then Accept
  else Refuse.

Definition unref (t : ty) : ty := match t with TRef u => u | _ => t end.

(* The flags with which a signature's arguments are compared,
   type-checker.cpp:307-309. *)
Definition sig_flags : flags :=
  {| commutative := false; func_arg := true; enum_assign := false;
     allow_coerce := false; ternary := false |}.

(* type-checker.cpp:78-90 CheckImpl; 249-279 CheckFunction, which looks at the
   two types as given, not at what a reference refers to; 281-314
   CheckFunctionSignature. *)
Fixpoint check_impl (fl : flags) (why : context) (formal actual : ty) {struct formal} : verdict :=
  let func :=
    if is_canonical formal && is_fun actual then Accept
    else if is_b BNull actual then Accept
    else match actual with
         | TFun _ (Some asigs) =>
           match rev asigs with
           | nil => Refuse
           | afn :: _ =>
             match formal with
             | TFun _ None => Refuse
             | TFun _ (Some fsigs) =>
               let check_args :=
                 fix check_args (fs : list ty) (ac : list ty) : verdict :=
                   match fs, ac with
                   | nil, nil => Accept
                   | f :: fs', a :: ac' =>
                     match check_impl sig_flags Generic f a with
                     | Accept => check_args fs' ac'
                     | v => v
                     end
                   | _, _ => Refuse
                   end in
               let check_sigs :=
                 fix check_sigs (fs : list sig) : verdict :=
                   match fs with
                   | nil => Refuse
                   | (fret, fargs, fvar) :: rest =>
                     let '(aret, aargs, avar) := afn in
                     let one :=
                       if negb (same fret aret) then vb (is_b BVoid fret && is_b BInt aret)
                       else if negb (Bool.eqb fvar avar) then Refuse
                       else if (length fargs <? length aargs)%nat then Refuse
                       else check_args fargs aargs in
                     match one with
                     | Accept => Accept
                     | Refuse => check_sigs rest
                     | Broken => Broken
                     end
                   end in
               check_sigs fsigs
             | _ => Broken
             end
           end
         | _ => Refuse
         end in
  match formal with
  | TArr fi fn =>
    match actual with
    | TArr ai an => vb (check_arrays fl why fi fn ai an)
    | _ => vb (check_slice fl why fi fn actual)
    end
  | _ =>
    if allow_coerce fl then check_value fl func (unref formal) (unref actual)
    else check_value fl func formal actual
  end.

(* type-checker.cpp:43-64 Check. *)
Definition check (fl : flags) (why : context) (formal actual : ty) : verdict :=
  match check_impl fl why formal actual with
  | Refuse => if commutative fl then check_impl fl why actual formal else Refuse
  | v => v
  end.

(* type-checker.cpp:38-41 Coerce: the flags given to the checker are thrown
   away. *)
Definition coerce_flags : flags :=
  {| commutative := false; func_arg := false; enum_assign := false;
     allow_coerce := true; ternary := false |}.
Definition coerce (why : context) (formal actual : ty) : verdict :=
  check coerce_flags why formal actual.
