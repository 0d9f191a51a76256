(* Model of plugin images: the container reader vm/smx-image.cpp (with vm/file-utils.cpp) and the container
   writer libsmx/smx-builder.cpp.

   The image is a list of bytes; pointers into it are offsets.  A read that is not wholly inside the buffer is
   [IUndef UBMem]; so is a use of a null pointer.  The host is little-endian and reads unaligned words.  Sizes
   are below 2^63, so size_t and pointer arithmetic do not wrap; uint32_t arithmetic does where the code has it. *)
From Coq Require String Ascii. Import String.StringSyntax.
From Verif Require Import Base Rtti_Model Rt_Model.
Local Open Scope string_scope.
Local Open Scope Z_scope.

(* A result; an error message; undefined behaviour; [ILoop]: a loop that never ends. *)
Inductive ires (A : Type) : Type :=
| IGood (a : A) | IBad (message : String.string) | IUndef (u : ub) | ILoop.
Arguments IGood {A} a. Arguments IBad {A} message. Arguments IUndef {A} u. Arguments ILoop {A}.

Definition ibind {A B : Type} (m : ires A) (k : A -> ires B) : ires B :=
  match m with IGood a => k a | IBad e => IBad e | IUndef u => IUndef u | ILoop => ILoop end.
Notation "x <-- m ;; k" := (ibind m (fun x => k)) (at level 61, m at next level, right associativity).
Notation "'refuse' c 'as' e ;; k" := (if c then IBad e else k) (at level 61, c at level 60, e at level 0, right associativity).

(* The characters of a C string constant, without the terminator. *)
Definition str (s : String.string) : list Z :=
  map (fun c => Z.of_N (Ascii.N_of_ascii c)) (String.list_ascii_of_string s).

Definition blen (buf : list Z) : Z := Z.of_nat (length buf).
Definition byte_at (buf : list Z) (o : Z) : Z := nth (Z.to_nat o) buf 0.

(* Reads of one, two and four bytes through a pointer. *)
Definition rd1 (buf : list Z) (o : Z) : ires Z :=
  if (o <? 0) || (blen buf <? o + 1) then IUndef UBMem else IGood (byte_at buf o).
Definition rd2 (buf : list Z) (o : Z) : ires Z :=
  if (o <? 0) || (blen buf <? o + 2) then IUndef UBMem else IGood (byte_at buf o + 256 * byte_at buf (o + 1)).
Definition rd4 (buf : list Z) (o : Z) : ires Z :=
  if (o <? 0) || (blen buf <? o + 4) then IUndef UBMem
  else IGood (byte_at buf o + 256 * byte_at buf (o + 1) + 65536 * byte_at buf (o + 2) + 16777216 * byte_at buf (o + 3)).

(* strcmp(buffer + o, s) == 0, reading up to the first difference. *)
Fixpoint cstr_eq (buf : list Z) (o : Z) (s : list Z) : ires bool :=
  b <-- rd1 buf o;;
  match s with
  | [] => IGood (b =? 0)
  | c :: s' => if b =? c then cstr_eq buf (o + 1) s' else IGood false
  end.

(* vm/smx-image.h:101-105 Section; the name is an offset into the buffer. *)
Record sect := mkSect { sc_name : Z; sc_off : Z; sc_size : Z }.

(* include/smx/smx-headers.h:34-69. *)
Definition FILE_MAGIC : Z := 0x53504646.
Definition versions : list Z := [0x0101; 0x0102; 0x0107; 0x0113].
Definition HDR : Z := 24.      (* sizeof(sp_file_hdr_t) *)
Definition SECT : Z := 12.     (* sizeof(sp_file_section_t) *)

(* What zlib's uncompress makes of its input: the output, an error, or the wish to read beyond the input
   it was given. *)
Inductive zres : Type := ZDone (out : list Z) | ZError | ZMore.

Section Load.
Variable inflate : list Z -> Z -> zres.     (* input, room for output *)
Variable fresh : Z -> list Z.               (* what malloc returned: this many bytes *)

(* vm/smx-image.cpp:53-97: decompression.  compressedSize wraps when disksize < dataoffs; then uncompress may
   read on behind the buffer. *)
Definition decompress (buf : list Z) : ires (list Z) :=
  disksize <-- rd4 buf 7;; imagesize <-- rd4 buf 11;; dataoffs <-- rd4 buf 20;;
  refuse (blen buf <? disksize) as "illegal disk size";;
  refuse (blen buf <? dataoffs) as "illegal compressed region";;
  refuse (dataoffs <? HDR) as "illegal compressed region";;
  refuse (imagesize <? dataoffs) as "illegal image size";;
  let compressed := u32 (disksize - dataoffs) in
  let present := skipn (Z.to_nat dataoffs) buf in
  let room := imagesize - dataoffs in
  match inflate (firstn (Z.to_nat compressed) present) room with
  | ZMore => if blen present <? compressed then IUndef UBMem else IBad "could not decode compressed region"
  | ZError => IBad "could not decode compressed region"
  | ZDone out => IGood (firstn (Z.to_nat dataoffs) buf ++ out ++ skipn (length out) (fresh room))
  end.

(* vm/smx-image.cpp:36-104: the header, and the buffer after decompression. *)
Definition load (buf : list Z) : ires (list Z) :=
  refuse (blen buf <? HDR) as "bad header";;
  magic <-- rd4 buf 0;;
  refuse (negb (magic =? FILE_MAGIC)) as "bad header";;
  version <-- rd2 buf 4;;
  refuse (negb (existsb (Z.eqb version) versions)) as "unsupported version";;
  compression <-- rd1 buf 6;;
  if compression =? 1 then decompress buf
  else if compression =? 0 then IGood buf
  else IBad "unknown compression type".
End Load.

(* vm/smx-image.cpp:119-130: the section table from entry [i]; [last]: last_header_string. *)
Fixpoint read_sections (buf : list Z) (stringtab dataoffs : Z) (n : nat) (i last : Z) : ires (list sect * Z) :=
  match n with
  | O => IGood ([], last)
  | S n' =>
    nameoffs <-- rd4 buf (HDR + SECT * i);;
    refuse (u32 (dataoffs - stringtab) <=? nameoffs) as "invalid section name";;
    off <-- rd4 buf (HDR + SECT * i + 4);;
    size <-- rd4 buf (HDR + SECT * i + 8);;
    r <-- read_sections buf stringtab dataoffs n' (i + 1) (if last <? nameoffs then nameoffs else last);;
    IGood (mkSect (stringtab + nameoffs) off size :: fst r, snd r)
  end.

(* vm/smx-image.cpp:134-141: is there a NUL in the [n] bytes from [o]? *)
Fixpoint find_nul (buf : list Z) (n : nat) (o : Z) : ires bool :=
  match n with
  | O => IGood false
  | S n' => b <-- rd1 buf o;; if b =? 0 then IGood true else find_nul buf n' (o + 1)
  end.

(* vm/smx-image.cpp:106-143: the container. *)
Definition container (buf : list Z) : ires (list sect) :=
  stringtab <-- rd4 buf 16;;
  refuse (blen buf <=? stringtab) as "invalid string table";;
  sections <-- rd1 buf 15;;
  refuse (blen buf <? HDR + sections * SECT) as "invalid section table";;
  dataoffs <-- rd4 buf 20;;
  r <-- read_sections buf stringtab dataoffs (Z.to_nat sections) 0 0;;
  found <-- find_nul buf (Z.to_nat (dataoffs - (stringtab + snd r))) (stringtab + snd r);;
  refuse (negb found) as "malformed section names header";;
  IGood (fst r).

(* vm/smx-image.cpp:174-181 findSection. *)
Fixpoint find_section (buf : list Z) (secs : list sect) (name : list Z) : ires (option sect) :=
  match secs with
  | [] => IGood None
  | s :: rest => same <-- cstr_eq buf (sc_name s) name;; if same : bool then IGood (Some s) else find_section buf rest name
  end.

(* vm/smx-image.cpp:183-190 validateSection. *)
Definition valid_section (buf : list Z) (s : sect) : bool :=
  if blen buf <=? sc_off s then false else negb (blen buf - sc_off s <? sc_size s).

(* vm/smx-image.cpp:192-212 validateRttiHeader. *)
Definition valid_rtti_header (buf : list Z) (s : sect) : ires bool :=
  if negb (valid_section buf s) then IGood false
  else if sc_size s <? 12 then IGood false
  else
    header_size <-- rd4 buf (sc_off s);;
    if sc_size s <? header_size then IGood false
    else
      row_size <-- rd4 buf (sc_off s + 4);;
      row_count <-- rd4 buf (sc_off s + 8);;
      if negb (u32_mul_safe row_size row_count) then IGood false
      else
        let table_size := u32 (row_size * row_count) in
        if negb (u32_add_safe table_size header_size) then IGood false
        else IGood (sc_size s =? u32 (header_size + table_size)).

(* A table of fixed-size structures, or a table with an RTTI header, by its offset. *)
Record table := mkTable { tb_off : Z; tb_count : Z }.
Record blob := mkBlob { bl_section : sect; bl_off : Z; bl_size : Z }.

(* vm/smx-image.h:254-260 getRttiRow (header->row_size * index is computed in size_t) and the row count. *)
Definition row_count (buf : list Z) (t : Z) : ires Z := rd4 buf (t + 8).
Definition row (buf : list Z) (t i : Z) : ires Z :=
  header_size <-- rd4 buf t;; row_size <-- rd4 buf (t + 4);; IGood (t + header_size + row_size * i).

(* A loop over rows i, i+1, ..., [n] of them, that stops at the first error. *)
Fixpoint for_rows (n : nat) (i : Z) (f : Z -> ires unit) : ires unit :=
  match n with O => IGood tt | S n' => _ <-- f i;; for_rows n' (i + 1) f end.

(* A yes or no from the type tables (Rtti_Model). *)
Definition from_rtti {A : Type} (r : pres A) : ires A :=
  match r with
  | Got a _ => IGood a
  | Bad OutOfTable | Bad NullResult => IUndef UBMem
  | Bad ShiftTooFar => IUndef UBArith
  | Bad AssertFailed => IUndef UBAssert
  | Bad OutOfFuel => ILoop
  end.

Section Image.
Variable buf : list Z.
Variable secs : list sect.
Notation find := (find_section buf secs).

Definition need_section (name : list Z) (missing invalid : String.string) : ires sect :=
  s <-- find name;;
  match s with
  | None => IBad missing
  | Some s => if valid_section buf s then IGood s else IBad invalid
  end.

(* vm/smx-image.cpp:145-154: the names section. *)
Definition names : ires sect :=
  s <-- need_section (str ".names") "could not find .names section" "invalid names section";;
  if sc_size s =? 0 then IGood s
  else b <-- rd1 buf (sc_off s + sc_size s - 1);; refuse (negb (b =? 0)) as "malformed names section";; IGood s.

(* vm/smx-image.cpp:214-233 validateData. *)
Definition validate_data : ires blob :=
  s <-- need_section (str ".data") "could not find data" "invalid data section";;
  data <-- rd4 buf (sc_off s + 8);;
  refuse (sc_size s <? data) as "invalid data blob";;
  datasize <-- rd4 buf (sc_off s);;
  refuse (sc_size s - data <? datasize) as "invalid data blob";;
  IGood (mkBlob s (sc_off s + data) datasize).

Definition kSupported : Z := 0x1e.        (* DirectArrays | HeapScopes | NullFunctions | TypedOps *)

(* vm/smx-image.cpp:235-280 validateCode; the result carries the features. *)
Definition validate_code : ires (blob * Z * Z) :=
  s <-- need_section (str ".code") "could not find code" "invalid code section";;
  version <-- rd1 buf (sc_off s + 5);;
  refuse (version <? 9) as "code version is too old, no longer supported";;
  refuse (14 <? version) as "code version is too new, not supported";;
  cellsize <-- rd1 buf (sc_off s + 4);;
  refuse (negb (cellsize =? 4)) as "unsupported cellsize";;
  flags <-- rd2 buf (sc_off s + 6);;
  refuse (negb (flags / 2 =? 0)) as "unsupported code settings";;
  code <-- rd4 buf (sc_off s + 12);;
  refuse (sc_size s <? code) as "invalid code blob";;
  codesize <-- rd4 buf (sc_off s);;
  refuse (sc_size s - code <? codesize) as "invalid code blob";;
  features <-- (if 13 <=? version then rd4 buf (sc_off s + 16) else IGood 0);;
  refuse ((14 <=? version) && negb (Z.land features kSupported =? kSupported)) as "invalid feature set";;
  refuse (negb (Z.land features (two32 - 1 - kSupported) =? 0)) as "unsupported feature set; code is too new";;
  IGood (mkBlob s (sc_off s + code) codesize, version, features).

Variable nm : sect.                        (* names_section_ *)

(* vm/smx-image.cpp:351-354 validateName. *)
Definition valid_name (o : Z) : bool := o <? sc_size nm.

(* vm/smx-image.cpp:282-349, 740-761: the tables of [width]-byte entries whose name is at [at_]. *)
Definition validate_list (section : list Z) (width at_ : Z) (invalid bad_name : String.string) : ires table :=
  s <-- find section;;
  match s with
  | None => IGood (mkTable 0 0)
  | Some s =>
    refuse (negb (valid_section buf s)) as invalid;;
    refuse (negb (sc_size s mod width =? 0)) as invalid;;
    let n := sc_size s / width in
    _ <-- for_rows (Z.to_nat n) 0 (fun i =>
      name <-- rd4 buf (sc_off s + width * i + at_);; refuse (negb (valid_name name)) as bad_name;; IGood tt);;
    IGood (mkTable (sc_off s) n)
  end.

Definition validate_publics := validate_list (str ".publics") 8 4 "invalid .publics section" "invalid public name".
Definition validate_pubvars := validate_list (str ".pubvars") 8 4 "invalid .pubvars section" "invalid pubvar name".
Definition validate_natives := validate_list (str ".natives") 4 0 "invalid .natives section" "invalid native name".
Definition validate_tags := validate_list (str ".tags") 8 4 "invalid .tags section" "invalid tag name".

Variable types : list Z.                   (* the bytes of rtti.data *)
Variable code : sect.                      (* code_.header() *)
Variable version : Z.                      (* code_->codeversion *)

Definition type_ok (r : pres bool) (e : String.string) : ires unit :=
  ok <-- from_rtti r;; if ok : bool then IGood tt else IBad e.

Definition check_name (o : Z) (e : String.string) : ires unit :=
  name <-- rd4 buf o;; if valid_name name then IGood tt else IBad e.

(* vm/smx-image.cpp:428-436 validateRttiEnums. *)
Definition validate_enums (t : Z) : ires unit :=
  n <-- row_count buf t;;
  for_rows (Z.to_nat n) 0 (fun i => r <-- row buf t i;; check_name r "invalid enum name").

(* vm/smx-image.cpp:467-480 validateRttiEnumStructField. *)
Definition validate_es_field (es fields j : Z) : ires unit :=
  n <-- row_count buf fields;;
  refuse (n <=? j) as "invalid enum struct field index";;
  r <-- row buf fields j;;
  _ <-- check_name r "invalid enum struct field name";;
  offset <-- rd4 buf (r + 8);; size <-- rd4 buf (es + 8);;
  refuse (u32 (size * 4) <=? offset) as "invalid enum struct field offset";;
  id <-- rd4 buf (r + 4);;
  type_ok (validateType types id) "invalid enum struct field type".

(* vm/smx-image.cpp:438-465 validateRttiEnumStructs. *)
Definition validate_enumstructs (t : Z) (fields : option Z) : ires unit :=
  match fields with
  | None => IBad "rtti.enumstruct_fields section missing"
  | Some fields =>
    n <-- row_count buf t;;
    for_rows (Z.to_nat n) 0 (fun i =>
      r <-- row buf t i;;
      _ <-- check_name r "invalid enum struct name";;
      stopat <-- (if i =? n - 1 then row_count buf fields else r' <-- row buf t (i + 1);; rd4 buf (r' + 4));;
      first <-- rd4 buf (r + 4);;
      refuse (stopat <=? first) as "invalid enum struct fields boundary";;
      for_rows (Z.to_nat (stopat - first)) first (validate_es_field r fields))
  end.

(* vm/smx-image.cpp:511-523 validateRttiField. *)
Definition validate_field (fields j : Z) : ires unit :=
  n <-- row_count buf fields;;
  refuse (n <=? j) as "invalid classdef field index";;
  r <-- row buf fields j;;
  _ <-- check_name (r + 2) "invalid classdef field name";;
  id <-- rd4 buf (r + 6);;
  type_ok (validateType types id) "invalid classdef field type".

(* vm/smx-image.cpp:483-509 validateRttiClassdefs. *)
Definition validate_classdefs (t : Z) (fields : option Z) : ires unit :=
  match fields with
  | None => IBad "rtti.fields section missing"
  | Some fields =>
    n <-- row_count buf t;;
    for_rows (Z.to_nat n) 0 (fun i =>
      r <-- row buf t i;;
      _ <-- check_name (r + 4) "invalid classdef name";;
      stopat <-- (if i =? n - 1 then row_count buf fields else r' <-- row buf t (i + 1);; rd4 buf (r' + 8));;
      first <-- rd4 buf (r + 8);;
      refuse (stopat <=? first) as "invalid classdef fields boundary";;
      for_rows (Z.to_nat (stopat - first)) first (validate_field fields))
  end.

(* vm/smx-image.cpp:525-550 validateRttiMethods. *)
Definition validate_methods (t : Z) : ires unit :=
  n <-- row_count buf t;;
  for_rows (Z.to_nat n) 0 (fun i =>
    r <-- row buf t i;;
    _ <-- check_name r "invalid method name";;
    signature <-- rd4 buf (r + 12);;
    _ <-- type_ok (validateFunctionOffset types signature) "invalid method signature type offset";;
    pstart <-- rd4 buf (r + 4);; pend <-- rd4 buf (r + 8);;
    refuse (pend <? pstart) as "invalid method code range";;
    refuse (sc_size code <=? pstart) as "invalid method code start";;
    refuse (sc_size code <? pend) as "invalid method code end";;
    row_size <-- rd4 buf (t + 4);;
    if 20 <=? row_size then
      refuse (version <? 14) as "invalid method row size";;
      locals <-- rd4 buf (r + 16);;
      type_ok (validateLocalSlots types locals) "invalid local signature"
    else refuse (14 <=? version) as "invalid method row size";; IGood tt).

(* vm/smx-image.cpp:552-562 validateRttiNatives. *)
Definition validate_rtti_natives (t : Z) : ires unit :=
  n <-- row_count buf t;;
  for_rows (Z.to_nat n) 0 (fun i =>
    r <-- row buf t i;;
    _ <-- check_name r "invalid native name";;
    signature <-- rd4 buf (r + 4);;
    type_ok (validateFunctionOffset types signature) "invalid native type offset").

(* vm/smx-image.cpp:564-574 validateRttiTypesets. *)
Definition validate_typesets (t : Z) : ires unit :=
  n <-- row_count buf t;;
  for_rows (Z.to_nat n) 0 (fun i =>
    r <-- row buf t i;;
    _ <-- check_name r "invalid typeset name";;
    signature <-- rd4 buf (r + 4);;
    type_ok (validateTypesetOffset types signature) "invalid typeset signatures").

(* vm/smx-image.cpp:367-382: a table that must be there. *)
Definition mandatory (name : list Z) : ires Z :=
  s <-- find name;;
  match s with
  | None => IBad "missing section"
  | Some s => ok <-- valid_rtti_header buf s;; if ok : bool then IGood (sc_off s) else IBad "could not validate section"
  end.

(* vm/smx-image.cpp:392-405, 407, 411, ...: a table that may be there (the messages leave out the table's name). *)
Definition optional (name : list Z) : ires (option Z) :=
  s <-- find name;;
  match s with
  | None => IGood None
  | Some s => ok <-- valid_rtti_header buf s;; if ok : bool then IGood (Some (sc_off s)) else IBad "could not validate section"
  end.

Definition when_there (t : option Z) (f : Z -> ires unit) : ires unit := match t with None => IGood tt | Some t => f t end.

(* vm/smx-image.cpp:367-426: the rest of validateRtti once rtti.data is known; the result is rtti_methods_. *)
Definition validate_rtti_tables : ires Z :=
  methods <-- mandatory (str "rtti.methods");;
  natives <-- mandatory (str "rtti.natives");;
  _ <-- validate_methods methods;;
  _ <-- validate_rtti_natives natives;;
  classdefs <-- optional (str "rtti.classdefs");;
  enums <-- optional (str "rtti.enums");;
  enumstructs <-- optional (str "rtti.enumstructs");;
  es_fields <-- optional (str "rtti.enumstruct_fields");;
  fields <-- optional (str "rtti.fields");;
  _ <-- optional (str "rtti.typedefs");;
  typesets <-- optional (str "rtti.typesets");;
  _ <-- when_there enums validate_enums;;
  _ <-- when_there enumstructs (fun t => validate_enumstructs t es_fields);;
  _ <-- when_there classdefs (fun t => validate_classdefs t fields);;
  _ <-- when_there typesets validate_typesets;;
  IGood methods.
End Image.

(* The bytes of a section. *)
Definition section_bytes (buf : list Z) (s : sect) : list Z := firstn (Z.to_nat (sc_size s)) (skipn (Z.to_nat (sc_off s)) buf).

(* vm/smx-image.cpp:356-426 validateRtti: the type table and rtti_methods_, if there is rtti.data. *)
Definition validate_rtti (buf : list Z) (secs : list sect) (nm code : sect) (version : Z) : ires (option (list Z * Z)) :=
  s <-- find_section buf secs (str "rtti.data");;
  match s with
  | None => IGood None
  | Some s =>
    refuse (negb (valid_section buf s)) as "invalid rtti.data section";;
    let types := section_bytes buf s in
    methods <-- validate_rtti_tables buf secs nm types code version;;
    IGood (Some (types, methods))
  end.

(* vm/smx-image.cpp:672-725 validateDebugVariables and validateSymbolAddress; [types] is null without rtti.data. *)
Definition bad_address (version memsize address vclass : Z) : bool :=
  if (vclass =? 0) || (vclass =? 2) then memsize <=? address
  else
    let a := wrap32 address in
    if vclass =? 1 then (if 14 <=? version then a <? 0 else 0 <=? a)
    else (if 14 <=? version then 0 <? a else a <=? 0).

Definition rtti_is_const (r : rtti) : bool := let '(Rtti _ _ _ c _ _ _) := r in c.

Definition validate_debug_vars (buf : list Z) (nm code : sect) (version memsize : Z) (types : option (list Z)) (t : Z) : ires unit :=
  n <-- row_count buf t;;
  for_rows (Z.to_nat n) 0 (fun i =>
    r <-- row buf t i;;
    vclass <-- rd1 buf (r + 4);;
    refuse (3 <? vclass) as "invalid debug variable class";;
    _ <-- check_name buf nm (r + 5) "invalid debug variable name";;
    cstart <-- rd4 buf (r + 9);; cend <-- rd4 buf (r + 13);;
    refuse (cend <? cstart) as "invalid debug variable code range";;
    refuse (sc_size code <=? cstart) as "invalid debug variable code start";;
    refuse (sc_size code <? cend) as "invalid debug variable code end";;
    id <-- rd4 buf (r + 17);;
    match types with
    | None => IUndef UBMem
    | Some types =>
      _ <-- type_ok (validateType types id) "invalid debug variable type";;
      ty <-- from_rtti (typeFromTypeId types id);;
      match ty with
      | None => IBad "invalid debug variable type"
      | Some ty =>
        if rtti_is_const ty then IGood tt
        else address <-- rd4 buf r;;
             if bad_address version memsize address vclass then IBad "invalid debug variable address" else IGood tt
      end
    end).

(* vm/smx-image.cpp:727-738 validateDebugMethods; rtti_methods_ is null without rtti.data. *)
Definition validate_debug_methods (buf : list Z) (methods locals : option Z) (t : Z) : ires unit :=
  n <-- row_count buf t;;
  for_rows (Z.to_nat n) 0 (fun i =>
    r <-- row buf t i;;
    match methods with
    | None => IUndef UBMem
    | Some methods =>
      index <-- rd4 buf r;; count <-- row_count buf methods;;
      refuse (count <=? index) as "invalid debug method index";;
      match locals with
      | None => IGood tt
      | Some locals =>
        first <-- rd4 buf (r + 4);; m <-- row_count buf locals;;
        if m <=? first then IBad "invalid first local index" else IGood tt
      end
    end).

(* debug_info_, debug_names_section_, debug_files_, debug_lines_, debug_symbols_section_ with the choice
   between the packed and the unpacked layout. *)
Record debug := mkDebug {
  dg_info : Z; dg_names : sect; dg_files : table; dg_lines : table; dg_symbols : option (sect * bool) }.

(* vm/smx-image.cpp:630-656: the new symbol tables; [stop]: debug breaks are enabled. *)
Definition validate_debug_tables (stop : bool) (buf : list Z) (secs : list sect) (nm code : sect) (version memsize : Z)
    (rtti : option (list Z * Z)) : ires unit :=
  globals <-- find_section buf secs (str ".dbg.globals");;
  _ <-- match globals with
        | None => IGood tt
        | Some g => ok <-- valid_rtti_header buf g;;
                    refuse (negb ok) as "invalid debug globals table";;
                    if stop then validate_debug_vars buf nm code version memsize (option_map fst rtti) (sc_off g) else IGood tt
        end;;
  locals <-- find_section buf secs (str ".dbg.locals");;
  _ <-- match locals with
        | None => IGood tt
        | Some l => ok <-- valid_rtti_header buf l;;
                    refuse (negb ok) as "invalid debug locals table";;
                    if stop then validate_debug_vars buf nm code version memsize (option_map fst rtti) (sc_off l) else IGood tt
        end;;
  methods <-- find_section buf secs (str ".dbg.methods");;
  match methods with
  | None => IGood tt
  | Some m => ok <-- valid_rtti_header buf m;;
              refuse (negb ok) as "invalid debug methods table";;
              if stop then validate_debug_methods buf (option_map snd rtti) (option_map sc_off locals) (sc_off m) else IGood tt
  end.

(* vm/smx-image.cpp:576-670 validateDebugInfo. *)
Definition validate_debug (stop : bool) (buf : list Z) (secs : list sect) (nm code : sect) (version memsize : Z)
    (rtti : option (list Z * Z)) : ires (option debug) :=
  info <-- find_section buf secs (str ".dbg.info");;
  match info with
  | None => IGood None
  | Some info =>
    refuse (negb (valid_section buf info)) as "invalid .dbg.info section";;
    strings <-- find_section buf secs (str ".dbg.strings");;
    dnames <-- match strings with
               | None => IGood nm
               | Some s =>
                 refuse (negb (valid_section buf s)) as "invalid .dbg.strings section";;
                 if sc_size s =? 0 then IGood s
                 else b <-- rd1 buf (sc_off s + sc_size s - 1);; refuse (negb (b =? 0)) as "invalid .dbg.strings section";; IGood s
               end;;
    files <-- need_section buf secs (str ".dbg.files") "no debug file table" "invalid debug file table";;
    nfiles <-- rd4 buf (sc_off info);;
    refuse (sc_size files <? 8 * nfiles) as "invalid debug file table size";;
    lines <-- need_section buf secs (str ".dbg.lines") "no debug lines table" "invalid debug lines table";;
    nlines <-- rd4 buf (sc_off info + 4);;
    refuse (sc_size lines <? 8 * nlines) as "invalid debug lines table size";;
    symbols <-- find_section buf secs (str ".dbg.symbols");;
    chosen <-- match symbols with
               | Some s =>
                 refuse (negb (valid_section buf s)) as "invalid debug symbol table";;
                 fv <-- rd2 buf 4;;
                 unpacked <-- (if fv =? 0x0101 then n <-- find_section buf secs (str ".dbg.natives");;
                                                     IGood (match n with None => true | Some _ => false end)
                               else IGood false);;
                 IGood (Some (s, unpacked))
               | None => _ <-- validate_debug_tables stop buf secs nm code version memsize rtti;; IGood None
               end;;
    IGood (Some (mkDebug (sc_off info) dnames (mkTable (sc_off files) nfiles) (mkTable (sc_off lines) nlines) chosen))
  end.

Record image := mkImage {
  im_buf : list Z; im_names : sect; im_code : blob; im_version : Z; im_features : Z; im_data : blob; im_publics : table;
  im_pubvars : table; im_natives : table; im_rtti : option (list Z * Z); im_debug : option debug; im_tags : table }.

(* vm/smx-image.cpp:145-171: the sections. *)
Definition validate_sections (stop : bool) (buf : list Z) (secs : list sect) : ires image :=
  nm <-- names buf secs;;
  cvf <-- validate_code buf secs;;
  let '(code, version, features) := cvf in
  data <-- validate_data buf secs;;
  publics <-- validate_publics buf secs nm;;
  pubvars <-- validate_pubvars buf secs nm;;
  natives <-- validate_natives buf secs nm;;
  rtti <-- validate_rtti buf secs nm (bl_section code) version;;
  memsize <-- (if stop then rd4 buf (sc_off (bl_section data) + 4) else IGood 0);;
  dbg <-- validate_debug stop buf secs nm (bl_section code) version memsize rtti;;
  tags <-- validate_tags buf secs nm;;
  IGood (mkImage buf nm code version features data publics pubvars natives rtti dbg tags).

(* vm/smx-image.cpp:34-172 validate. *)
Definition validate_image (inflate : list Z -> Z -> zres) (fresh : Z -> list Z) (stop : bool) (file : list Z) : ires image :=
  buf <-- load inflate fresh file;;
  secs <-- container buf;;
  validate_sections stop buf secs.

(* ---- What the host asks of an accepted image. ---- *)

(* The C string at [o], read to its terminator. *)
Fixpoint cstr_fuel (buf : list Z) (n : nat) (o : Z) : ires (list Z) :=
  match n with
  | O => IUndef UBMem
  | S n' => b <-- rd1 buf o;; if b =? 0 then IGood [] else r <-- cstr_fuel buf n' (o + 1);; IGood (b :: r)
  end.
Definition cstr (buf : list Z) (o : Z) : ires (list Z) := cstr_fuel buf (S (Z.to_nat (blen buf - o))) o.

(* names_ + the name of entry [i] of a list (vm/smx-image.cpp:786-790, 810-817, 842-849; List::operator[] asserts). *)
Definition list_name (im : image) (t : table) (width at_ i : Z) : ires Z :=
  if tb_count t <=? i then IUndef UBAssert
  else name <-- rd4 (im_buf im) (tb_off t + width * i + at_);; IGood (sc_off (im_names im) + name).
Definition get_native (im : image) (i : Z) : ires Z := list_name im (im_natives im) 4 0 i.
Definition get_public (im : image) (i : Z) : ires (Z * Z) :=
  name <-- list_name im (im_publics im) 8 4 i;;
  address <-- rd4 (im_buf im) (tb_off (im_publics im) + 8 * i);; IGood (address, name).
Definition get_pubvar (im : image) (i : Z) : ires (Z * Z) :=
  name <-- list_name im (im_pubvars im) 8 4 i;;
  address <-- rd4 (im_buf im) (tb_off (im_pubvars im) + 8 * i);; IGood (address, name).

(* vm/smx-image.cpp:792-803 FindNative: the first native of that name. *)
Fixpoint find_native_from (im : image) (name : list Z) (n : nat) (i : Z) : ires (option Z) :=
  match n with
  | O => IGood None
  | S n' => o <-- get_native im i;; same <-- cstr_eq (im_buf im) o name;;
            if same : bool then IGood (Some i) else find_native_from im name n' (i + 1)
  end.
Definition find_native (im : image) (name : list Z) : ires (option Z) :=
  find_native_from im name (Z.to_nat (tb_count (im_natives im))) 0.

(* vm/smx-image.cpp:819-835, 851-867 FindPublic and FindPubvar: a later entry replaces an earlier one in the map. *)
Fixpoint find_last_from (im : image) (t : table) (name : list Z) (n : nat) (i : Z) (found : option Z) : ires (option Z) :=
  match n with
  | O => IGood found
  | S n' => o <-- list_name im t 8 4 i;; s <-- cstr (im_buf im) o;;
            find_last_from im t name n' (i + 1) (if list_eq_dec Z.eq_dec s name then Some i else found)
  end.
Definition find_public (im : image) (name : list Z) : ires (option Z) :=
  find_last_from im (im_publics im) name (Z.to_nat (tb_count (im_publics im))) 0 None.
Definition find_pubvar (im : image) (name : list Z) : ires (option Z) :=
  find_last_from im (im_pubvars im) name (Z.to_nat (tb_count (im_pubvars im))) 0 None.

(* vm/smx-image.cpp:879-890, 966-977: the binary search; entries are eight bytes and start with the address. *)
Fixpoint search (fuel : nat) (buf : list Z) (t : table) (a low high : Z) : ires Z :=
  if high - low >? 1 then
    match fuel with
    | O => ILoop
    | S fuel' =>
      let mid := Z.quot (low + high) 2 in
      if tb_count t <=? mid then IUndef UBAssert else
      x <-- rd4 buf (tb_off t + 8 * mid);;
      if x <=? a then search fuel' buf t a mid high else search fuel' buf t a low mid
    end
  else IGood low.
Definition lookup_index (buf : list Z) (t : table) (a : Z) : ires Z := search (Z.to_nat (tb_count t + 1)) buf t a (-1) (tb_count t).

Definition no_table : table := mkTable 0 0.
Definition im_files (im : image) : table := match im_debug im with None => no_table | Some d => dg_files d end.
Definition im_lines (im : image) : table := match im_debug im with None => no_table | Some d => dg_lines d end.
Definition im_dnames (im : image) : ires sect := match im_debug im with None => IUndef UBMem | Some d => IGood (dg_names d) end.

(* A name in the debug names section, or none. *)
Definition debug_name (im : image) (name : Z) : ires (option Z) :=
  d <-- im_dnames im;; IGood (if sc_size d <=? name then None else Some (sc_off d + name)).

(* vm/smx-image.cpp:879-898 LookupFile. *)
Definition lookup_file (im : image) (a : Z) : ires (option Z) :=
  low <-- lookup_index (im_buf im) (im_files im) a;;
  if low =? -1 then IGood None
  else name <-- rd4 (im_buf im) (tb_off (im_files im) + 8 * low + 4);; debug_name im name.

(* vm/smx-image.cpp:966-985 LookupLine. *)
Definition lookup_line (im : image) (a : Z) : ires (option Z) :=
  low <-- lookup_index (im_buf im) (im_lines im) a;;
  if low =? -1 then IGood None
  else line <-- rd4 (im_buf im) (tb_off (im_lines im) + 8 * low + 4);; IGood (Some (u32 (line + 1))).

(* vm/smx-image.cpp:992-1001 GetFileName. *)
Definition get_file_name (im : image) (i : Z) : ires (option Z) :=
  if tb_count (im_files im) <=? i then IGood None
  else name <-- rd4 (im_buf im) (tb_off (im_files im) + 8 * i + 4);; debug_name im name.

(* vm/smx-image.cpp:953-964 GetMethodRttiByOffset: the offset of the row. *)
Fixpoint method_from (buf : list Z) (t a : Z) (n : nat) (i : Z) : ires (option Z) :=
  match n with
  | O => IGood None
  | S n' =>
    r <-- row buf t i;; pstart <-- rd4 buf (r + 4);;
    if pstart <=? a then
      pend <-- rd4 buf (r + 8);;
      if pend >? a then IGood (Some r) else method_from buf t a n' (i + 1)
    else method_from buf t a n' (i + 1)
  end.
Definition method_by_offset (im : image) (a : Z) : ires (option Z) :=
  match im_rtti im with
  | None => IGood None
  | Some (_, t) => n <-- row_count (im_buf im) t;; method_from (im_buf im) t a (Z.to_nat n) 0
  end.

(* The old symbol tables (include/smx/smx-legacy-debuginfo.h:57-108), packed and unpacked: the sizes of an
   entry and of a dimension, and where codestart, codeend, ident, dimcount and name are. *)
Record layout := mkLayout { ly_size : Z; ly_dim : Z; ly_start : Z; ly_end : Z; ly_ident : Z; ly_dims : Z; ly_name : Z }.
Definition sym_layout (unpacked : bool) : layout :=
  if unpacked then mkLayout 24 8 8 12 16 18 20 else mkLayout 22 6 6 10 14 16 18.
Definition IDENT_FUNCTION : Z := 9.

(* vm/smx-image.cpp:900-921 lookupFunction. *)
Fixpoint function_from (im : image) (y : layout) (stop a : Z) (n : nat) (cursor : Z) : ires (option Z) :=
  match n with
  | O => IGood None
  | S n' =>
    if cursor + ly_size y >? stop then IGood None
    else
      ident <-- rd1 (im_buf im) (cursor + ly_ident y);;
      cs <-- rd4 (im_buf im) (cursor + ly_start y);;
      ce <-- rd4 (im_buf im) (cursor + ly_end y);;
      if (ident =? IDENT_FUNCTION) && (cs <=? a) && (ce >? a) then
        name <-- rd4 (im_buf im) (cursor + ly_name y);; debug_name im name
      else
        dims <-- rd2 (im_buf im) (cursor + ly_dims y);;
        function_from im y stop a n' (cursor + ly_dim y * dims + ly_size y)
  end.

Definition num_syms (im : image) (d : debug) : ires Z := rd4 (im_buf im) (dg_info d + 8).

Definition symbol_lookup (im : image) (a : Z) : ires (option Z) :=
  match im_debug im with
  | Some d =>
    match dg_symbols d with
    | Some (s, unpacked) =>
      n <-- num_syms im d;; function_from im (sym_layout unpacked) (sc_off s + sc_size s) a (Z.to_nat n) (sc_off s)
    | None => IGood None
    end
  | None => IGood None
  end.

(* vm/smx-image.cpp:940-943: a public at exactly that address. *)
Fixpoint public_at (im : image) (a : Z) (n : nat) (i : Z) : ires (option Z) :=
  match n with
  | O => IGood None
  | S n' => p <-- get_public im i;; if a =? fst p then IGood (Some (snd p)) else public_at im a n' (i + 1)
  end.

(* vm/smx-image.cpp:923-946 LookupFunction. *)
Definition lookup_function (im : image) (a : Z) : ires (option Z) :=
  m <-- method_by_offset im a;;
  match m with
  | Some r => name <-- rd4 (im_buf im) r;; IGood (Some (sc_off (im_names im) + name))
  | None =>
    s <-- symbol_lookup im a;;
    match s with
    | Some o => IGood (Some o)
    | None => public_at im a (Z.to_nat (tb_count (im_publics im))) 0
    end
  end.

(* vm/smx-image.cpp:1003-1022 getFunctionCount. *)
Fixpoint count_functions (im : image) (y : layout) (stop : Z) (n : nat) (cursor count : Z) : ires Z :=
  match n with
  | O => IGood count
  | S n' =>
    if cursor + ly_size y >? stop then IGood count
    else
      ident <-- rd1 (im_buf im) (cursor + ly_ident y);;
      dims <-- rd2 (im_buf im) (cursor + ly_dims y);;
      count_functions im y stop n' (cursor + ly_dim y * dims + ly_size y) (if ident =? IDENT_FUNCTION then count + 1 else count)
  end.

(* vm/smx-image.cpp:1024-1041 NumFunctions; [counted] is the static variable, which all images share. *)
Definition num_functions (im : image) (counted : Z) : ires (Z * Z) :=
  match im_rtti im with
  | Some (_, t) => n <-- row_count (im_buf im) t;; IGood (n, counted)
  | None =>
    if counted =? 0 then
      match im_debug im with
      | Some d =>
        match dg_symbols d with
        | Some (s, unpacked) =>
          n <-- num_syms im d;;
          c <-- count_functions im (sym_layout unpacked) (sc_off s + sc_size s) (Z.to_nat n) (sc_off s) 0;;
          IGood (c, c)
        | None => IUndef UBMem
        end
      | None => IUndef UBMem
      end
    else IGood (counted, counted)
  end.

(* vm/smx-image.cpp:1092-1114 getFunctionAddress (the index it is given is not moved on): the symbol's address. *)
Fixpoint function_named (im : image) (y : layout) (stop : Z) (name : list Z) (n : nat) (cursor : Z) : ires (option Z) :=
  match n with
  | O => IGood None
  | S n' =>
    if cursor + ly_size y >? stop then IGood None
    else
      ident <-- rd1 (im_buf im) (cursor + ly_ident y);;
      sym <-- rd4 (im_buf im) (cursor + ly_name y);;
      o <-- debug_name im sym;;
      same <-- match o with Some o => if ident =? IDENT_FUNCTION then cstr_eq (im_buf im) o name else IGood false | None => IGood false end;;
      if same : bool then a <-- rd4 (im_buf im) cursor;; IGood (Some a)
      else
        dims <-- rd2 (im_buf im) (cursor + ly_dims y);;
        function_named im y stop name n' (cursor + ly_dim y * dims + ly_size y)
  end.

(* Is [a] in the file called [file]? *)
Definition in_file (im : image) (file : list Z) (a : Z) : ires bool :=
  o <-- lookup_file im a;; match o with None => IGood false | Some o => cstr_eq (im_buf im) o file end.

(* vm/smx-image.cpp:1119-1131: the method rows; [addr]: *funcaddr. *)
Fixpoint method_named (im : image) (t : Z) (name file : list Z) (n : nat) (i addr : Z) : ires Z :=
  match n with
  | O => IGood addr
  | S n' =>
    r <-- row (im_buf im) t i;; nm <-- rd4 (im_buf im) r;;
    same <-- cstr_eq (im_buf im) (sc_off (im_names im) + nm) name;;
    if same : bool then
      pstart <-- rd4 (im_buf im) (r + 4);;
      here <-- in_file im file pstart;;
      if here : bool then IGood pstart else method_named im t name file n' (i + 1) pstart
    else method_named im t name file n' (i + 1) addr
  end.

(* vm/smx-image.cpp:1132-1154: the symbol table.  [index] starts again at 0 in every round, so every round does
   the same; the assertion is evaluated in debug builds only and is left out. *)
Fixpoint symbol_named (rounds : nat) (im : image) (d : debug) (s : sect) (y : layout) (name file : list Z) (addr : Z) : ires (option Z) :=
  match rounds with
  | O => ILoop
  | S rounds' =>
    n <-- num_syms im d;;
    found <-- function_named im y (sc_off s + sc_size s) name (Z.to_nat n) (sc_off s);;
    let addr := match found with Some a => a | None => addr end in
    if n <=? 0 then IGood None
    else
      here <-- in_file im file addr;;
      if here : bool then IGood (Some addr) else symbol_named rounds' im d s y name file addr
  end.

(* vm/smx-image.cpp:1156-1165: the first line at or after the address. *)
Fixpoint line_from (im : image) (addr : Z) (n : nat) (i : Z) : ires (option Z) :=
  match n with
  | O => IGood None
  | S n' => x <-- rd4 (im_buf im) (tb_off (im_lines im) + 8 * i);; if x <? addr then line_from im addr n' (i + 1) else IGood (Some x)
  end.

(* vm/smx-image.cpp:1116-1166 LookupFunctionAddress. *)
Definition lookup_function_address (rounds : nat) (im : image) (name file : list Z) : ires (option Z) :=
  found <-- match im_rtti im with
            | Some (_, t) => n <-- row_count (im_buf im) t;; a <-- method_named im t name file (Z.to_nat n) 0 0;; IGood (Some a)
            | None =>
              match im_debug im with
              | Some d =>
                match dg_symbols d with
                | Some (s, unpacked) => symbol_named rounds im d s (sym_layout unpacked) name file 0
                | None => IUndef UBMem
                end
              | None => IUndef UBMem
              end
            end;;
  match found with
  | None => IGood None
  | Some a =>
    match im_debug im with
    | None => IUndef UBMem
    | Some d => line_from im a (Z.to_nat (tb_count (dg_lines d))) 0
    end
  end.

(* vm/smx-image.cpp:1192-1200: the two scans of the line table, from line [i], [n] lines left. *)
Fixpoint skip_lines (buf : list Z) (t : table) (keep_on : Z -> Z -> bool) (n : nat) (i : Z) : ires Z :=
  match n with
  | O => IGood i
  | S n' =>
    a <-- rd4 buf (tb_off t + 8 * i);; l <-- rd4 buf (tb_off t + 8 * i + 4);;
    if keep_on a l : bool then skip_lines buf t keep_on n' (i + 1) else IGood i
  end.

(* vm/smx-image.cpp:1178-1215: the instances of the file. *)
Fixpoint line_address_from (im : image) (files lines : table) (line : Z) (file : list Z) (n : nat) (f i : Z) : ires (option Z) :=
  match n with
  | O => IGood None
  | S n' =>
    name <-- rd4 (im_buf im) (tb_off files + 8 * f + 4);;
    o <-- debug_name im name;;
    same <-- match o with None => IGood false | Some o => cstr_eq (im_buf im) o file end;;
    if negb same then line_address_from im files lines line file n' (f + 1) i
    else
      bottom <-- rd4 (im_buf im) (tb_off files + 8 * f);;
      top <-- (if f + 1 <? tb_count files then rd4 (im_buf im) (tb_off files + 8 * (f + 1)) else IGood (two32 - 1));;
      i <-- skip_lines (im_buf im) lines (fun a _ => a <? bottom) (Z.to_nat (tb_count lines - i)) i;;
      i <-- skip_lines (im_buf im) lines (fun a l => (l <? line) && (a <? top)) (Z.to_nat (tb_count lines - i)) i;;
      if tb_count lines <=? i then IGood None
      else
        l <-- rd4 (im_buf im) (tb_off lines + 8 * i + 4);;
        if line <=? l then a <-- rd4 (im_buf im) (tb_off lines + 8 * i);; IGood (Some a)
        else line_address_from im files lines line file n' (f + 1) i
  end.

(* vm/smx-image.cpp:1168-1216 LookupLineAddress. *)
Definition lookup_line_address (im : image) (line : Z) (file : list Z) : ires (option Z) :=
  match im_debug im with
  | None => IUndef UBMem
  | Some d => line_address_from im (dg_files d) (dg_lines d) line file (Z.to_nat (tb_count (dg_files d))) 0 0
  end.

(* ---- The writer. ---- *)

(* The bytes of two- and four-byte little-endian fields. *)
Definition le2 (v : Z) : list Z := [v mod 256; v / 256 mod 256].
Definition le4 (v : Z) : list Z := [v mod 256; v / 256 mod 256; v / 65536 mod 256; v / 16777216 mod 256].

(* libsmx/smx-builder.h:37-60 SmxSection: its name and what its write() writes. *)
Record section := mkSection { se_name : list Z; se_bytes : list Z }.

Definition names_length (secs : list section) : Z := fold_right (fun s n => blen (se_name s) + 1 + n) 0 secs.
Definition data_length (secs : list section) : Z := fold_right (fun s n => blen (se_bytes s) + n) 0 secs.

(* libsmx/smx-builder.cpp:73-86: the section table; the fields are uint32_t. *)
Fixpoint write_table (secs : list section) (nameoffs dataoffs : Z) : list Z :=
  match secs with
  | [] => []
  | s :: rest =>
    le4 (u32 nameoffs) ++ le4 (u32 dataoffs) ++ le4 (u32 (blen (se_bytes s))) ++
    write_table rest (nameoffs + blen (se_name s) + 1) (dataoffs + u32 (blen (se_bytes s)))
  end.

(* libsmx/smx-builder.cpp:29-111 SmxBuilder::write. *)
Definition write_image (secs : list section) : list Z :=
  let n := Z.of_nat (length secs) in
  let stringtab := u32 (HDR + SECT * n) in
  let disksize := u32 (HDR + SECT * n + data_length secs + names_length secs) in
  let dataoffs := u32 (HDR + SECT * n + names_length secs) in
  le4 FILE_MAGIC ++ le2 0x0102 ++ [0] ++ le4 disksize ++ le4 disksize ++ [n mod 256] ++ le4 stringtab ++ le4 dataoffs ++
  write_table secs 0 (stringtab + names_length secs) ++
  flat_map (fun s => se_name s ++ [0]) secs ++
  flat_map se_bytes secs.

(* libsmx/smx-builder.h:199-254 SmxNameTable; the strings are interned, so equal strings are the same key.
   [None]: abort(). *)
Record nametab := mkNametab { nt_entries : list (list Z * Z); nt_size : Z }.
Definition name_add (t : nametab) (s : list Z) : option (nametab * Z) :=
  match List.find (fun e => if list_eq_dec Z.eq_dec (fst e) s then true else false) (nt_entries t) with
  | Some e => Some (t, snd e)
  | None =>
    if negb (u32_add_safe (nt_size t) (u32 (blen s + 1))) then None
    else Some (mkNametab (nt_entries t ++ [(s, nt_size t)]) (u32 (nt_size t + blen s + 1)), nt_size t)
  end.
Definition nametab_bytes (t : nametab) : list Z := flat_map (fun e => fst e ++ [0]) (nt_entries t).

(* libsmx/smx-builder.h:155-184 SmxRttiTable::write: the header and the rows. *)
Definition rtti_bytes (row_size : Z) (rows : list (list Z)) : list Z :=
  le4 12 ++ le4 row_size ++ le4 (u32 (Z.of_nat (length rows))) ++ concat rows.
