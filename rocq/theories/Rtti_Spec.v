(* What C14, C15 and C16 say about type tables. *)
From Verif Require Import Base Pool_Model Pool_Spec Rtti_Model.

(* [l] is what the table holds from offset [o] on. *)
Definition holds (t : list Z) (o : Z) (l : list Z) : Prop :=
  exists before, t = before ++ l /\ Z.of_nat (length before) = o.
Definition size_of (l : list Z) : Z := Z.of_nat (length l).

(* The kind byte and table index a type is known by. *)
Definition leaf_kind (l : leaf) : Z :=
  match l with
  | LBool => kBool | LAny => kAny | LChar => kChar8 | LFloat => kFloat32 | LInt => kInt32
  | LInt64 => kInt64 | LFunction => kTopFunction | LStruct _ => kClassdef
  | LEnumStruct _ => kEnumStruct | LEnum _ => kEnum | LTypeset _ => kTypeset
  | LSignature _ => kFunctionPtr
  end.
Definition leaf_index (l : leaf) : Z :=
  match l with
  | LStruct i | LEnumStruct i | LEnum i | LTypeset i | LSignature i => i
  | _ => 0
  end.
Definition dim_kind (d : Z) : Z := if d =? 0 then kArray else kFixedArray.

(* The type object the VM should build: arrays nest one object per dimension, the outermost object
   carries the const and by-reference marks. *)
Fixpoint array_view (ds : list Z) (l : leaf) (c r : bool) : rtti :=
  match ds with
  | [] => Rtti (leaf_kind l) (leaf_index l) None c r false []
  | d :: ds' => Rtti (dim_kind d) d (Some (array_view ds' l false false)) c r false []
  end.
Definition view (t : ctype) : rtti :=
  match form t with
  | Plain => array_view [] (base t) (qual_const t) false
  | Reference => array_view [] (base t) (qual_const t) true
  | Arrays d ds => array_view (d :: ds) (base t) (qual_const t) false
  end.
Definition view_return (r : option ctype) : rtti :=
  match r with None => Rtti kVoid 0 None false false false [] | Some t => view t end.
Definition view_signature (s : csig) : rtti :=
  Rtti kFunction 0 (Some (view_return (sig_return s))) false false (sig_variadic s)
       (map (fun a => Some (view a)) (sig_args s)).

(* Indices, sizes and counts in the range the compiler keeps them in. *)
Definition dims_of (t : ctype) : list Z :=
  match form t with Arrays d ds => d :: ds | _ => [] end.
Definition good_type (t : ctype) : Prop := is_u32 (leaf_index (base t)) /\ Forall is_u32 (dims_of t).
Definition good_signature (s : csig) : Prop :=
  Z.of_nat (length (sig_args s)) < 256 /\ Forall good_type (sig_args s) /\
  match sig_return s with Some t => good_type t | None => True end.

(* [r] is a definite answer reached without touching a byte outside the table, without undefined
   arithmetic, without a null dereference and without running on for ever. *)
Definition answers {A} (r : pres A) : Prop := exists a o, r = Got a o.

(* Between [o] and [o'] the table has no function marker ... *)
Definition no_function (t : list Z) (o o' : Z) : Prop :=
  forall i, o <= i < o' -> getb t i <> Some kFunction.
(* ... and no five consecutive bytes that all announce a continuation. *)
Definition short_numbers (t : list Z) (o o' : Z) : Prop :=
  forall i, o <= i -> i + 5 <= o' -> exists j b, i <= j < i + 5 /\ getb t j = Some b /\ b < 128.

(* The bytes a type id stands for: inline ones are the payload itself. *)
Definition id_bytes (t : list Z) (id : Z) : list Z :=
  if id mod 16 =? kTypeId_Inline then inline_bytes ((id / 16) mod 2 ^ 28) else t.
Definition id_offset (id : Z) : Z :=
  if id mod 16 =? kTypeId_Inline then 0 else (id / 16) mod 2 ^ 28.
