(* Model of run-time type information: the compiler's encoder (libsmx/smx-encoding.h,
   compiler/rtti-builder.cpp) and the VM's readers (vm/rtti.{h,cpp}).

   A type table is a list of bytes and a parser position is an offset into it.  Reading a byte outside
   the table is the outcome [Bad OutOfTable].  The table is shorter than 2^32 bytes (its size is a
   uint32_t), so [offset_++] after a successful read never wraps.  Loops and recursion carry fuel;
   [Bad OutOfFuel] is proved not to happen for the fuel the entry points pass. *)
From Verif Require Import Base Pool_Model.

(* include/smx/smx-typeinfo.h:214-262. *)
Definition kBool := 0x01.        Definition kInt32 := 0x06.     Definition kInt64 := 0x07.
Definition kFloat32 := 0x0c.     Definition kChar8 := 0x0e.     Definition kAny := 0x10.
Definition kTopFunction := 0x11. Definition kFixedArray := 0x30. Definition kArray := 0x31.
Definition kFunction := 0x32.    Definition kFunctionPtr := 0x33. Definition kEnum := 0x42.
Definition kObsoleteTypedef := 0x43. Definition kTypeset := 0x44. Definition kClassdef := 0x45.
Definition kEnumStruct := 0x46.  Definition kLocalSlots := 0x60. Definition kVoid := 0x70.
Definition kLegacyVariadic := 0x71. Definition kByRef := 0x72.  Definition kConst := 0x73.

(* include/smx/smx-typeinfo.h:188-201. *)
Definition kTypeId_Inline : Z := 0.
Definition kTypeId_Complex : Z := 1.
Definition kMaxTypeIdPayload : Z := 0xfffffff.
Definition MakeTypeId (payload kind : Z) : Z := u32 (payload * 16) + kind.

(* ---- Encoder ------------------------------------------------------------------------------ *)

(* libsmx/smx-encoding.h:26-38; five rounds are enough for 32 bits. *)
Fixpoint compact_loop (fuel : nat) (copy : Z) : list Z :=
  match fuel with
  | O => []
  | S n =>
      let byte := if copy >? 0x7f then copy mod 128 + 128 else copy mod 128 in
      byte :: (if copy / 128 =? 0 then [] else compact_loop n (copy / 128))
  end.
Definition compact (v : Z) : list Z := compact_loop 5 v.

(* The compiler's types as the encoder sees them.  Enums, structs, typesets and single-signature
   function types appear with the table index or pool offset that add_enum, add_struct, add_enumstruct,
   add_typeset or type_pool_.add gave them (the index allocation itself is the pool, Pool_Model.v). *)
Inductive leaf : Type :=
| LBool | LAny | LChar | LFloat | LInt | LInt64 | LFunction
| LStruct (index : Z) | LEnumStruct (index : Z) | LEnum (index : Z)
| LTypeset (index : Z) | LSignature (offset : Z).

(* An array has one entry per dimension, 0 for an unsized one. *)
Inductive shape : Type := Plain | Reference | Arrays (first : Z) (rest : list Z).

Record ctype : Type := mkType { qual_const : bool; form : shape; base : leaf }.

Record csig : Type := mkSig { sig_variadic : bool; sig_return : option ctype; sig_args : list ctype }.

(* compiler/rtti-builder.cpp:407-423, 431-470, 472-490. *)
Definition encode_leaf (l : leaf) : list Z :=
  match l with
  | LBool => [kBool] | LAny => [kAny] | LChar => [kChar8] | LFloat => [kFloat32]
  | LInt => [kInt32] | LInt64 => [kInt64] | LFunction => [kTopFunction]
  | LStruct i => kClassdef :: compact i
  | LEnumStruct i => kEnumStruct :: compact i
  | LEnum i => kEnum :: compact i
  | LTypeset i => kTypeset :: compact i
  | LSignature i => kFunctionPtr :: compact i
  end.

(* compiler/rtti-builder.cpp:436-451. *)
Definition encode_dim (d : Z) : list Z :=
  if d =? 0 then [kArray] else kFixedArray :: compact d.

(* compiler/rtti-builder.cpp:431-484. *)
Definition encode_type (t : ctype) : list Z :=
  (if qual_const t then [kConst] else []) ++
  match form t with
  | Plain => []
  | Reference => [kByRef]
  | Arrays d ds => flat_map encode_dim (d :: ds)
  end ++ encode_leaf (base t).

(* compiler/rtti-builder.cpp:503-515 (and encode_signature, 336-366, once the hidden argument is put
   in the list); the argument count is cut to a byte. *)
Definition encode_return (r : option ctype) : list Z :=
  match r with None => [kVoid] | Some t => encode_type t end.
Definition encode_signature (s : csig) : list Z :=
  kFunction :: Z.of_nat (length (sig_args s)) mod 256 ::
  (if sig_variadic s then [kLegacyVariadic] else []) ++
  encode_return (sig_return s) ++ flat_map encode_type (sig_args s).

(* compiler/rtti-builder.cpp:396-401 (add_typeset). *)
Definition encode_typeset (sigs : list csig) : list Z :=
  compact (Z.of_nat (length sigs)) ++ flat_map encode_signature sigs.

(* compiler/rtti-builder.cpp finish_method: kLocalSlots, a 16-bit count, the slot types. *)
Definition encode_local_slots (slots : list ctype) : list Z :=
  let n := Z.of_nat (length slots) in
  kLocalSlots :: n mod 256 :: (n / 256) mod 256 :: flat_map encode_type slots.

(* payload |= bytes[i] << (i * 8), the bytes being disjoint. *)
Fixpoint payload_of (bytes : list Z) : Z :=
  match bytes with [] => 0 | b :: bs => b + 256 * payload_of bs end.

(* compiler/rtti-builder.cpp:321-334. *)
Definition to_typeid (p : data_pool) (t : ctype) : data_pool * Z :=
  let bytes := encode_type t in
  let payload := payload_of bytes in
  if (Z.of_nat (length bytes) <=? 4) && (payload <=? kMaxTypeIdPayload)
  then (p, MakeTypeId payload kTypeId_Inline)
  else let '(p', offset) := pool_add p bytes in (p', MakeTypeId offset kTypeId_Complex).

(* compiler/rtti-builder.cpp:44-46: the builder's pool starts with a placeholder. *)
Definition builder_pool : data_pool := fst (pool_add new_pool [255]).

(* ---- Readers ------------------------------------------------------------------------------ *)

(* Null results are kept by the C++ code as null pointers and dereferenced by setByRef/setConst. *)
Inductive trouble : Type := OutOfTable | ShiftTooFar | NullResult | AssertFailed | OutOfFuel.
Inductive pres (A : Type) : Type := Got (a : A) (o : Z) | Bad (w : trouble).
Arguments Got {A}. Arguments Bad {A}.

Definition pbind {A B} (m : pres A) (k : A -> Z -> pres B) : pres B :=
  match m with Got a o => k a o | Bad w => Bad w end.
Notation "'do' ( x , o ) <- m ; k" := (pbind m (fun x o => k))
  (at level 200, x name, o name, m at level 100, k at level 200).

Definition getb (t : list Z) (o : Z) : option Z :=
  if o <? 0 then None else nth_error t (Z.to_nat o).
Definition tlen (t : list Z) : Z := Z.of_nat (length t).

(* *(bytes_ + offset_), unchecked. *)
Definition peek (t : list Z) (o : Z) : pres Z :=
  match getb t o with Some b => Got b o | None => Bad OutOfTable end.
Definition next (t : list Z) (o : Z) : pres Z :=
  match getb t o with Some b => Got b (o + 1) | None => Bad OutOfTable end.

(* vm/rtti.cpp:451-458. *)
Definition pmatch (t : list Z) (b : Z) (o : Z) : pres bool :=
  do (x, o) <- peek t o; if x =? b then Got true (o + 1) else Got false o.

(* value |= (b & 0x7f) << shift, in uint32_t. *)
Definition add_bits (value b shift : Z) : Z := Z.lor value (u32 ((b mod 128) * 2 ^ shift)).

(* vm/rtti.cpp:460-472.  A shift of 32 or more is undefined. *)
Fixpoint decode_loop (fuel : nat) (t : list Z) (value shift o : Z) : pres Z :=
  match fuel with
  | O => Bad OutOfFuel
  | S n =>
      do (b, o) <- next t o;
      if shift >=? 32 then Bad ShiftTooFar
      else let value := add_bits value b shift in
           if b <? 128 then Got value o else decode_loop n t value (shift + 7) o
  end.
Definition decodeUint32 (t : list Z) (o : Z) : pres Z := decode_loop (S (length t)) t 0 0 o.

(* vm/rtti.cpp:474-482. *)
Fixpoint try_loop (fuel : nat) (t : list Z) (o : Z) : pres bool :=
  match fuel with
  | O => Bad OutOfFuel
  | S n =>
      if o <? tlen t then
        do (b, o) <- next t o;
        if b <? 128 then Got true o else try_loop n t o
      else Got false o
  end.
Definition tryDecodeUint32 (t : list Z) (o : Z) : pres bool := try_loop (S (length t)) t o.

(* vm/rtti.h:89-133 and vm/rtti.cpp:489-553. *)
Inductive rtti : Type :=
  Rtti (type index : Z) (inner : option rtti) (is_const is_by_ref is_variadic : bool)
       (args : list (option rtti)).
Definition set_const (r : rtti) : rtti :=
  let '(Rtti t i n _ b v a) := r in Rtti t i n true b v a.
Definition set_by_ref (r : rtti) : rtti :=
  let '(Rtti t i n c _ v a) := r in Rtti t i n c true v a.
(* x->setByRef() when [flag]; x may be null. *)
Definition mark (f : rtti -> rtti) (flag : bool) (r : option rtti) : option (option rtti) :=
  if flag then match r with Some x => Some (Some (f x)) | None => None end else Some r.

(* The case labels shared by decode, validate and SkipNextType. *)
Definition is_simple (b : Z) : bool :=
  existsb (Z.eqb b) [kBool; kInt32; kInt64; kFloat32; kChar8; kAny; kTopFunction].
Definition is_indexed (b : Z) : bool :=
  existsb (Z.eqb b) [kEnum; kObsoleteTypedef; kTypeset; kClassdef; kEnumStruct; kFunctionPtr].

(* vm/rtti.cpp:251-263.  [dec] is decode, started with is_const_ = false; the caller's is_const_ is
   restored. *)
Definition decodeNew_with (dec : bool -> Z -> pres (option rtti * bool)) (o : Z) : pres (option rtti) :=
  do (rc, o) <- dec false o;
  match mark set_const (snd rc) (fst rc) with Some r => Got r o | None => Bad NullResult end.

Section Decode.
  Variable t : list Z.

  (* vm/rtti.cpp:330-337: the loop over argc arguments. *)
  Fixpoint decode_args (dec : bool -> Z -> pres (option rtti * bool)) (argc : nat) (o : Z)
    : pres (list (option rtti)) :=
    match argc with
    | O => Got [] o
    | S n =>
        do (by_ref, o) <- pmatch t kByRef o;
        do (a, o) <- decodeNew_with dec o;
        match mark set_by_ref by_ref a with
        | None => Bad NullResult
        | Some a => do (rest, o) <- decode_args dec n o; Got (a :: rest) o
        end
    end.

  (* vm/rtti.cpp:310-339. *)
  Definition decodeFunction_with (dec : bool -> Z -> pres (option rtti * bool)) (o : Z) : pres (option rtti) :=
    do (argc, o) <- next t o;
    do (variadic, o) <- pmatch t kLegacyVariadic o;
    do (v, o) <- pmatch t kVoid o;
    do (ret, o) <- (if v : bool then Got (Some (Rtti kVoid 0 None false false false [])) o
                    else decodeNew_with dec o);
    do (args, o) <- decode_args dec (Z.to_nat argc) o;
    Got (Some (Rtti kFunction 0 ret false false variadic args)) o.

  (* vm/rtti.cpp:265-308.  The flag is is_const_; the result pairs the type with is_const_ after. *)
  Fixpoint decode (fuel : nat) (c : bool) (o : Z) : pres (option rtti * bool) :=
    match fuel with
    | O => Bad OutOfFuel
    | S n =>
        do (m, o) <- pmatch t kConst o;
        let c := (m || c)%bool in
        do (by_ref, o) <- pmatch t kByRef o;
        do (ty, o) <- next t o;
        do (rc, o) <-
          (if is_simple ty then Got (Some (Rtti ty 0 None false false false []), c) o
           else if ty =? kFixedArray then
             do (sz, o) <- decodeUint32 t o;
             do (ic, o) <- decode n c o;
             Got (Some (Rtti ty sz (fst ic) false false false []), snd ic) o
           else if ty =? kArray then
             do (ic, o) <- decode n c o;
             Got (Some (Rtti ty 0 (fst ic) false false false []), snd ic) o
           else if is_indexed ty then
             do (i, o) <- decodeUint32 t o;
             Got (Some (Rtti ty i None false false false []), c) o
           else if ty =? kFunction then
             do (f, o) <- decodeFunction_with (decode n) o; Got (f, c) o
           else Got (None, c) o);
        match mark set_by_ref by_ref (fst rc) with
        | Some r => Got (r, snd rc) o
        | None => Bad NullResult
        end
    end.

  Definition fuel_for : nat := S (length t).
  Definition decodeNew (o : Z) : pres (option rtti) := decodeNew_with (decode fuel_for) o.
  Definition decodeFunction (o : Z) : pres (option rtti) := decodeFunction_with (decode fuel_for) o.

  (* vm/rtti.cpp:341-351: every round reads at least one byte. *)
  Fixpoint decode_sigs (fuel : nat) (count : Z) (o : Z) : pres (list (option rtti)) :=
    match fuel with
    | O => Bad OutOfFuel
    | S n =>
        if count <=? 0 then Got [] o
        else do (s, o) <- decodeNew o; do (rest, o) <- decode_sigs n (count - 1) o; Got (s :: rest) o
    end.
  Definition decodeTypeset (o : Z) : pres (option rtti) :=
    do (count, o) <- decodeUint32 t o;
    do (sigs, o) <- decode_sigs (S fuel_for) count o;
    Got (Some (Rtti kTypeset 0 None false false false sigs)) o.

  Definition past_end (o : Z) : bool := o >=? tlen t.
  Notation "'need' o ; k" := (if past_end o then Got false o else k) (at level 200).

  (* vm/rtti.cpp:422-431: the loop over argc arguments. *)
  Fixpoint validate_args (val : Z -> pres bool) (argc : nat) (o : Z) : pres bool :=
    match argc with
    | O => Got true o
    | S n =>
        need o;
        do (_m, o) <- pmatch t kConst o;
        need o;
        do (_m, o) <- pmatch t kByRef o;
        do (v, o) <- val o;
        if v : bool then validate_args val n o else Got false o
    end.

  (* vm/rtti.cpp:393-433. *)
  Definition validateFunction_with (val : Z -> pres bool) (o : Z) : pres bool :=
    need o;
    do (_m, o) <- pmatch t kFunction o;
    need o;
    do (argc, o) <- next t o;
    need o;
    do (_m, o) <- pmatch t kLegacyVariadic o;
    need o;
    do (void, o) <- pmatch t kVoid o;
    do (v, o) <- (if void : bool then Got true o else val o);
    if v : bool then validate_args val (Z.to_nat argc) o else Got false o.

  (* vm/rtti.cpp:353-391. *)
  Fixpoint validate_loop (fuel : nat) (o : Z) : pres bool :=
    match fuel with
    | O => Bad OutOfFuel
    | S n =>
        need o;
        do (_m, o) <- pmatch t kConst o;
        need o;
        do (_m, o) <- pmatch t kByRef o;
        need o;
        do (ty, o) <- next t o;
        if is_simple ty then Got true o
        else if ty =? kFixedArray then
          do (ok, o) <- tryDecodeUint32 t o;
          if ok : bool then validate_loop n o else Got false o
        else if ty =? kArray then validate_loop n o
        else if is_indexed ty then tryDecodeUint32 t o
        else if ty =? kFunction then validateFunction_with (validate_loop n) o
        else Got false o
    end.
  Definition validate (o : Z) : pres bool := validate_loop fuel_for o.
  Definition validateFunction (o : Z) : pres bool := validateFunction_with (validate_loop fuel_for) o.

  (* vm/rtti.cpp:435-449. *)
  Fixpoint validate_many (fuel : nat) (count : Z) (o : Z) : pres bool :=
    match fuel with
    | O => Bad OutOfFuel
    | S n =>
        if count <=? 0 then Got true o
        else do (v, o) <- validate o; if v : bool then validate_many n (count - 1) o else Got false o
    end.
  Definition validateTypeset (o : Z) : pres bool :=
    do (ok, _o) <- tryDecodeUint32 t o;
    if ok : bool then
      do (count, o) <- decodeUint32 t o; validate_many (S fuel_for) count o
    else Got false _o.

  (* vm/rtti.cpp:209-226; the 16-bit count is read unaligned. *)
  Definition validateLocalSlots (o : Z) : pres bool :=
    if o =? 0 then Got true o
    else if (o >=? tlen t) || (tlen t - o <? 3) then Got false o
    else
      do (b, o) <- next t o;
      if negb (b =? kLocalSlots) then Got false o
      else do (lo, o) <- next t o; do (hi, o) <- next t o; validate_many (S fuel_for) (lo + 256 * hi) o.
End Decode.

Definition answer {A} (r : pres A) : option A := match r with Got a _ => Some a | Bad _ => None end.

(* The four bytes of an inline type id: vm/rtti.cpp:143-148, 186-191. *)
Definition inline_bytes (payload : Z) : list Z :=
  [byte_of 0 payload; byte_of 1 payload; byte_of 2 payload; byte_of 3 payload].

(* vm/rtti.cpp:136-160 with a table present. *)
Definition typeFromTypeId (t : list Z) (id : Z) : pres (option rtti) :=
  let kind := id mod 16 in
  let payload := (id / 16) mod 2 ^ 28 in
  if kind =? kTypeId_Inline then decodeNew (inline_bytes payload) 0
  else if kind =? kTypeId_Complex then decodeNew t payload
  else Got None 0.

(* vm/rtti.cpp:182-207. *)
Definition validateType (t : list Z) (id : Z) : pres bool :=
  let kind := id mod 16 in
  let payload := (id / 16) mod 2 ^ 28 in
  if kind =? kTypeId_Inline then validate (inline_bytes payload) 0
  else if kind =? kTypeId_Complex then
    if payload >=? tlen t then Got false payload else validate t payload
  else Got false 0.

(* vm/rtti.cpp:162-178, 209-216. *)
Definition functionTypeFromOffset := decodeFunction.
Definition typesetTypeFromOffset := decodeTypeset.
Definition validateFunctionOffset := validateFunction.
Definition validateTypesetOffset := validateTypeset.

(* FastRtti, vm/rtti.cpp:16-124.  Every byte goes through GetByte, which checks the bound: the result
   [None] is the C++ [false]. *)
Notation fast A := (pres (option A)).
Definition fnext (t : list Z) (o : Z) : fast Z :=
  if o >=? tlen t then Got None o else do (b, o) <- next t o; Got (Some b) o.

Definition ReadFunctionSignatureArgCount (t : list Z) (o : Z) : fast Z :=
  do (b, o) <- fnext t o;
  match b with
  | Some b => if b =? kFunction then fnext t o else Got None o
  | None => Got None o
  end.

Definition ReadLocalSlotCount (t : list Z) (o : Z) : fast Z :=
  do (b, o) <- fnext t o;
  match b with
  | Some b =>
      if b =? kLocalSlots then
        do (lo, o) <- fnext t o;
        match lo with
        | Some lo => do (hi, o) <- fnext t o;
                     match hi with Some hi => Got (Some (lo + 256 * hi)) o | None => Got None o end
        | None => Got None o
        end
      else Got None o
  | None => Got None o
  end.

(* vm/rtti.cpp:106-124: gives up once the shift reaches 35, so at most five bytes. *)
Fixpoint fast_loop (fuel : nat) (t : list Z) (value shift o : Z) : fast Z :=
  match fuel with
  | O => Bad OutOfFuel
  | S n =>
      do (b, o) <- fnext t o;
      match b with
      | None => Got None o
      | Some b =>
          let value := add_bits value b shift in
          if b <? 128 then Got (Some value) o
          else if shift + 7 >=? 32 then Got None o
          else fast_loop n t value (shift + 7) o
      end
  end.
Definition ReadCompactUint32 (t : list Z) (o : Z) : fast Z := fast_loop 6 t 0 0 o.

(* vm/rtti.cpp:57-104.  The default case is assert(false) followed by return false. *)
Fixpoint skip_loop (fuel : nat) (t : list Z) (o : Z) : pres bool :=
  match fuel with
  | O => Bad OutOfFuel
  | S n =>
      do (b, o) <- fnext t o;
      match b with
      | None => Got false o
      | Some b =>
          do (b, o) <- (if (b =? kByRef) || (b =? kConst) then fnext t o else Got (Some b) o);
          match b with
          | None => Got false o
          | Some b =>
              if is_simple b || (b =? kVoid) then Got true o
              else if b =? kFixedArray then
                do (v, o) <- ReadCompactUint32 t o;
                match v with Some _ => skip_loop n t o | None => Got false o end
              else if b =? kArray then skip_loop n t o
              else if existsb (Z.eqb b) [kEnum; kTypeset; kEnumStruct; kFunctionPtr] then
                do (v, o) <- ReadCompactUint32 t o;
                match v with Some _ => Got true o | None => Got false o end
              else Bad AssertFailed
          end
      end
  end.
Definition SkipNextType (t : list Z) (o : Z) : pres bool := skip_loop (fuel_for t) t o.
