(* What C17, C18 and C19 say about images, in terms of the bytes of the file. *)
From Coq Require String. Import String.StringSyntax.
From Verif Require Import Base Rtti_Model Rt_Model Img_Model.
Local Open Scope string_scope.
Local Open Scope Z_scope.

(* The 32-bit little-endian number at [o]. *)
Definition word_at (buf : list Z) (o : Z) : Z :=
  byte_at buf o + 256 * byte_at buf (o + 1) + 65536 * byte_at buf (o + 2) + 16777216 * byte_at buf (o + 3).

(* The operation answers or reports an error: it does not read outside the image, trip an assertion or go on
   for ever.  (Arithmetic on over-long numbers is C16's concern.) *)
Definition contained {A : Type} (r : ires A) : Prop := r <> IUndef UBMem /\ r <> IUndef UBAssert /\ r <> ILoop.

(* The bytes [s] and then a zero are at [o]. *)
Definition string_at (buf : list Z) (o : Z) (s : list Z) : Prop :=
  0 <= o /\ firstn (length s + 1) (skipn (Z.to_nat o) buf) = s ++ [0] /\ Forall (fun c => c <> 0) s.

(* The section table. *)
Definition entry_name (buf : list Z) (i : Z) : Z := word_at buf 16 + word_at buf (24 + 12 * i).
Definition entry_off (buf : list Z) (i : Z) : Z := word_at buf (24 + 12 * i + 4).
Definition entry_size (buf : list Z) (i : Z) : Z := word_at buf (24 + 12 * i + 8).

(* The structures at the start of these sections, and the rows of these tables, with their sizes. *)
Definition headers : list (list Z * Z) := [(str ".code", 20); (str ".data", 12); (str ".dbg.info", 12)].
Definition rows : list (list Z * Z) :=
  [(str "rtti.methods", 16); (str "rtti.natives", 8); (str "rtti.enums", 16); (str "rtti.enumstructs", 12);
   (str "rtti.enumstruct_fields", 12); (str "rtti.classdefs", 28); (str "rtti.fields", 10); (str "rtti.typesets", 8)].

(* Every section that starts with a structure has the room for it before the end of the image; every table has
   rows as large as its structure, or as much room behind it. *)
Definition roomy (buf : list Z) : Prop := forall i name w,
  0 <= i < byte_at buf 15 -> string_at buf (entry_name buf i) name ->
  (In (name, w) headers -> entry_off buf i + w <= blen buf) /\
  (In (name, w) rows -> w <= word_at buf (entry_off buf i + 4) \/ entry_off buf i + entry_size buf i + w <= blen buf).

(* A compressed file does not claim to end before its compressed part begins; an uncompressed one does not claim
   that its names end behind the file. *)
Definition honest_offsets (file : list Z) : Prop :=
  (byte_at file 6 = 1 -> word_at file 20 <= word_at file 7) /\ (byte_at file 6 = 0 -> word_at file 20 <= blen file).

(* zlib and malloc do what they promise. *)
Definition bytes (l : list Z) : Prop := Forall is_byte l.
Definition zlib (inflate : list Z -> Z -> zres) : Prop :=
  forall input room out, inflate input room = ZDone out -> bytes out /\ blen out <= room.
Definition allocator (fresh : Z -> list Z) : Prop := forall n, 0 <= n -> bytes (fresh n) /\ blen (fresh n) = n.

(* The [n] bytes from [o] lie inside the image. *)
Definition inside (buf : list Z) (o n : Z) : Prop := 0 <= o /\ 0 <= n /\ o + n <= blen buf.

(* There is a zero-terminated string at [o] inside the section [s]. *)
Definition name_in (buf : list Z) (s : sect) (o : Z) : Prop :=
  exists t, string_at buf o t /\ sc_off s <= o /\ o + blen t + 1 <= sc_off s + sc_size s.

(* Address [i] of a table of eight-byte entries, and its other field. *)
Definition addr_of (buf : list Z) (t : table) (i : Z) : Z := word_at buf (tb_off t + 8 * i).
Definition item_of (buf : list Z) (t : table) (i : Z) : Z := word_at buf (tb_off t + 8 * i + 4).
Definition sorted (buf : list Z) (t : table) : Prop := forall i j, 0 <= i <= j -> j < tb_count t -> addr_of buf t i <= addr_of buf t j.

(* The last entry that starts at or before [a]. *)
Definition last_start (buf : list Z) (t : table) (a i : Z) : Prop :=
  0 <= i < tb_count t /\ addr_of buf t i <= a /\ forall j, i < j < tb_count t -> a < addr_of buf t j.

(* The rows of a table with an RTTI header. *)
Definition row_at (buf : list Z) (t i : Z) : Z := t + word_at buf t + word_at buf (t + 4) * i.
Definition row_total (buf : list Z) (t : Z) : Z := word_at buf (t + 8).

(* What the writer may be given: one to 255 sections with different names that hold no zero, and less than
   4 GB in all. *)
Definition writable (secs : list section) : Prop :=
  1 <= Z.of_nat (length secs) <= 255 /\ NoDup (map se_name secs) /\
  Forall (fun s => bytes (se_name s) /\ Forall (fun c => c <> 0) (se_name s) /\ bytes (se_bytes s)) secs /\
  24 + 12 * Z.of_nat (length secs) + names_length secs + data_length secs < two32.

(* A list of [w]-byte entries inside the image whose names, at [at_], are strings of the names section. *)
Definition named_list (im : image) (t : table) (w at_ : Z) : Prop := 0 <= tb_count t /\
  forall i, 0 <= i < tb_count t -> inside (im_buf im) (tb_off t + w * i) w /\
    name_in (im_buf im) (im_names im) (sc_off (im_names im) + word_at (im_buf im) (tb_off t + w * i + at_)).

(* The same for the rows of the method table: name, code range and signature. *)
Definition named_methods (im : image) (t : Z) : Prop := inside (im_buf im) t 12 /\
  forall i, 0 <= i < row_total (im_buf im) t -> inside (im_buf im) (row_at (im_buf im) t i) 16 /\
    name_in (im_buf im) (im_names im) (sc_off (im_names im) + word_at (im_buf im) (row_at (im_buf im) t i)).

(* What holds of an accepted image. *)
Definition sound (im : image) : Prop :=
  inside (im_buf im) (bl_off (im_code im)) (bl_size (im_code im)) /\
  inside (im_buf im) (bl_off (im_data im)) (bl_size (im_data im)) /\
  named_list im (im_natives im) 4 0 /\ named_list im (im_publics im) 8 4 /\ named_list im (im_pubvars im) 8 4 /\
  named_list im (im_tags im) 8 4 /\
  (forall types t, im_rtti im = Some (types, t) -> named_methods im t) /\
  (forall d, im_debug im = Some d ->
     (0 <= tb_count (dg_files d) /\ inside (im_buf im) (tb_off (dg_files d)) (8 * tb_count (dg_files d))) /\
     (0 <= tb_count (dg_lines d) /\ inside (im_buf im) (tb_off (dg_lines d)) (8 * tb_count (dg_lines d))) /\
     (forall n, 0 <= n < sc_size (dg_names d) -> name_in (im_buf im) (dg_names d) (sc_off (dg_names d) + n)) /\
     (forall s u, dg_symbols d = Some (s, u) -> inside (im_buf im) (sc_off s) (sc_size s))).

(* A pointer the host got back is null or points to a zero-terminated string. *)
Definition string_or_null (im : image) (r : ires (option Z)) : Prop :=
  exists o, r = IGood o /\ match o with None => True | Some o => exists s, string_at (im_buf im) o s end.

(* The debug information header has room for its symbol count. *)
Definition info_room (im : image) : Prop := forall d, im_debug im = Some d -> 0 <= dg_info d /\ dg_info d + 12 <= blen (im_buf im).

(* The bytes [l] are at [o]. *)
Definition bytes_at (buf : list Z) (o : Z) (l : list Z) : Prop := exists pre post, buf = pre ++ l ++ post /\ blen pre = o.

(* Adding strings to a name table one after the other: the table and the offsets handed out. *)
Fixpoint name_add_all (t : nametab) (l : list (list Z)) : option (nametab * list Z) :=
  match l with
  | [] => Some (t, [])
  | s :: rest =>
    match name_add t s with
    | None => None
    | Some (t1, o) => match name_add_all t1 rest with None => None | Some (t2, os) => Some (t2, o :: os) end
    end
  end.

(* Entry [i] of a list of [w]-byte entries with the name at [at_] is called [s]. *)
Definition entry_called (im : image) (t : table) (w at_ i : Z) (s : list Z) : Prop :=
  string_at (im_buf im) (sc_off (im_names im) + word_at (im_buf im) (tb_off t + w * i + at_)) s.
(* It is called something else. *)
Definition entry_not_called (im : image) (t : table) (w at_ i : Z) (s : list Z) : Prop :=
  exists s', entry_called im t w at_ i s' /\ s' <> s.

(* Method row [k] covers the address [a]. *)
Definition covers (im : image) (t k a : Z) : Prop :=
  0 <= k < row_total (im_buf im) t /\
  word_at (im_buf im) (row_at (im_buf im) t k + 4) <= a < word_at (im_buf im) (row_at (im_buf im) t k + 8).

(* The address [a] is in the part of the code that entry [f] of the file table describes. *)
Definition in_file_entry (im : image) (t : table) (f a : Z) : Prop :=
  0 <= f < tb_count t /\ addr_of (im_buf im) t f <= a /\ (f + 1 < tb_count t -> a < addr_of (im_buf im) t (f + 1)).
