(* C17, C18, C19, C44: images. *)
From Coq Require String. Import String.StringSyntax.
From Verif Require Import Base Rtti_Model Rt_Model Img_Model Img_Spec Img_Safe Img_Accept Img_Write Img_Cases.
Local Open Scope string_scope.
Local Open Scope Z_scope.

(* C17: validation of any byte string answers or refuses without a read outside the image, an assertion or an endless
   loop.  Missing: images whose offsets or section sizes lie ([honest_offsets], [roomy]); with debug breaks enabled; see
   the refutations. *)
Theorem C17_validate_partial : forall inflate fresh file,
  zlib inflate -> allocator fresh -> bytes file -> honest_offsets file ->
  (forall buf, load inflate fresh file = IGood buf -> roomy buf) ->
  contained (validate_image inflate fresh false file).
Proof. exact validate_contained. Qed.
Print Assumptions C17_validate_partial.

Example C17_validate_example : zlib no_inflate /\ allocator zeros /\ bytes methods_image /\ honest_offsets methods_image /\
  (forall buf, load no_inflate zeros methods_image = IGood buf -> roomy buf).
Proof. exact methods_honest. Qed.

(* Whatever the image, and with or without debug breaks: once it is accepted, its code, its data and every row and name
   lie inside it. *)
Theorem C17_accepted : forall inflate fresh stop file im,
  zlib inflate -> allocator fresh -> bytes file ->
  validate_image inflate fresh stop file = IGood im -> sound im /\ bytes (im_buf im).
Proof. exact validate_sound. Qed.
Print Assumptions C17_accepted.

Theorem C17_names : forall im, sound im -> bytes (im_buf im) ->
  (forall i, 0 <= i < tb_count (im_natives im) -> exists o s, get_native im i = IGood o /\ string_at (im_buf im) o s) /\
  (forall i, 0 <= i < tb_count (im_publics im) -> exists a o s, get_public im i = IGood (a, o) /\ string_at (im_buf im) o s) /\
  (forall i, 0 <= i < tb_count (im_pubvars im) -> exists a o s, get_pubvar im i = IGood (a, o) /\ string_at (im_buf im) o s).
Proof. exact (fun im SO _ => get_all_named im SO). Qed.
Print Assumptions C17_names.

Theorem C17_find_native : forall im, sound im -> forall name, Forall (fun c => c <> 0) name ->
  exists r, find_native im name = IGood r /\
  match r with
  | Some k => 0 <= k < tb_count (im_natives im) /\ entry_called im (im_natives im) 4 0 k name /\
              forall j, 0 <= j < k -> entry_not_called im (im_natives im) 4 0 j name
  | None => forall j, 0 <= j < tb_count (im_natives im) -> entry_not_called im (im_natives im) 4 0 j name
  end.
Proof. exact find_native_first. Qed.
Print Assumptions C17_find_native.

Theorem C17_find_public : forall im, sound im -> forall name, exists r, find_public im name = IGood r /\
  match r with
  | Some k => 0 <= k < tb_count (im_publics im) /\ entry_called im (im_publics im) 8 4 k name /\
              forall j, k < j < tb_count (im_publics im) -> entry_not_called im (im_publics im) 8 4 j name
  | None => forall j, 0 <= j < tb_count (im_publics im) -> entry_not_called im (im_publics im) 8 4 j name
  end.
Proof. exact find_public_last. Qed.
Print Assumptions C17_find_public.

Theorem C17_find_pubvar : forall im, sound im -> forall name, exists r, find_pubvar im name = IGood r /\
  match r with
  | Some k => 0 <= k < tb_count (im_pubvars im) /\ entry_called im (im_pubvars im) 8 4 k name /\
              forall j, k < j < tb_count (im_pubvars im) -> entry_not_called im (im_pubvars im) 8 4 j name
  | None => forall j, 0 <= j < tb_count (im_pubvars im) -> entry_not_called im (im_pubvars im) 8 4 j name
  end.
Proof. exact find_pubvar_last. Qed.
Print Assumptions C17_find_pubvar.

(* The debug questions answer with a string of the image or with nothing; asking for a function needs the symbol count to
   be there. *)
Theorem C17_debug_partial : forall im, sound im -> bytes (im_buf im) ->
  (forall a, string_or_null im (lookup_file im a)) /\ (forall i, 0 <= i -> string_or_null im (get_file_name im i)) /\
  (forall a, exists r, lookup_line im a = IGood r) /\ (info_room im -> forall a, string_or_null im (lookup_function im a)).
Proof.
  exact (fun im SO B => conj (lookup_file_ok im SO B) (conj (get_file_name_ok im SO B) (conj (lookup_line_ok im SO)
    (fun IR a => lookup_function_ok im SO B a IR)))).
Qed.
Print Assumptions C17_debug_partial.

Example C17_names_example : exists im, run methods_image = IGood im /\
  (get_native im 0 = IGood 310 /\ find_native im (str "print") = IGood (Some 0) /\ find_public im (str "main") = IGood (Some 0) /\ find_public im (str "print") = IGood None) /\
  (map (lookup_line im) [0; 3; 4; 7; 8; 100] = [IGood (Some 3); IGood (Some 3); IGood (Some 4); IGood (Some 4); IGood (Some 10); IGood (Some 10)] /\
   map (lookup_file im) [0; 7; 8] = [IGood (Some 316); IGood (Some 316); IGood (Some 321)] /\
   map (lookup_function im) [0; 3; 4; 12] = [IGood (Some 305); IGood (Some 305); IGood (Some 310); IGood None]).
Proof. exact methods_answers. Qed.

(* Refuted without the hypotheses: the names end behind the file; .code or .data is shorter than its structure at the
   end of the file; a method table with rows of no bytes at the end of the file. *)
Theorem C17_validate_refuted : forall inflate fresh stop,
  Forall (fun file => bytes file /\ validate_image inflate fresh stop file = IUndef UBMem)
    [gap_image; write_image short_code; write_image short_data; write_image no_rows].
Proof. exact validate_outside. Qed.
Print Assumptions C17_validate_refuted.

(* A compressed image that claims to be shorter than its header: with nothing to read, inflate asks for more, and it was
   told that there are 2^32 - 1 bytes. *)
Theorem C17_compressed_refuted : forall inflate fresh stop, inflate [] 2 = ZMore ->
  bytes cut_image /\ validate_image inflate fresh stop cut_image = IUndef UBMem.
Proof. exact cut_outside. Qed.
Print Assumptions C17_compressed_refuted.

(* With debug breaks enabled: debug variables or debug methods without type data (a null pointer). *)
Theorem C17_debug_breaks_refuted : forall inflate fresh,
  Forall (fun file => bytes file /\ validate_image inflate fresh true file = IUndef UBMem) [globals_image; debug_methods_image].
Proof. exact stop_outside. Qed.
Print Assumptions C17_debug_breaks_refuted.

(* An accepted image with an eight-byte .dbg.info at its end: asking for a function reads the count behind it. *)
Theorem C17_symbols_refuted : exists im, bytes short_info /\ run short_info = IGood im /\ lookup_function im 0 = IUndef UBMem.
Proof. exact info_outside. Qed.
Print Assumptions C17_symbols_refuted.

(* C18: the reader accepts the header and finds every section with its contents, and no other section. *)
Theorem C18_round_trip : forall secs inflate fresh, writable secs ->
  load inflate fresh (write_image secs) = IGood (write_image secs) /\
  exists table, container (write_image secs) = IGood table /\
    (forall s, In s secs -> exists e, find_section (write_image secs) table (se_name s) = IGood (Some e) /\
      section_bytes (write_image secs) e = se_bytes s /\ sc_size e = blen (se_bytes s) /\
      (se_bytes s <> [] -> valid_section (write_image secs) e = true)) /\
    (forall name, Forall (fun c => c <> 0) name -> ~ In name (map se_name secs) -> find_section (write_image secs) table name = IGood None).
Proof. exact written_found. Qed.
Print Assumptions C18_round_trip.

Example C18_round_trip_example : writable basic.
Proof. exact basic_writable. Qed.

(* Every offset the name table gave out is the place of the string it was given for, at the end and whatever follows; the
   same string has the same offset. *)
Theorem C18_names : forall l t os rest, Forall (fun s => Forall (fun c => c <> 0) s /\ blen s + 1 < two32) l ->
  name_add_all (mkNametab [] 0) l = Some (t, os) ->
  blen (nametab_bytes t) = nt_size t /\ Forall2 (fun s o => string_at (nametab_bytes t ++ rest) o s) l os.
Proof. exact names_resolve. Qed.
Print Assumptions C18_names.

Theorem C18_names_shared : forall l t os i j oi oj s, Forall (fun s => Forall (fun c => c <> 0) s /\ blen s + 1 < two32) l ->
  name_add_all (mkNametab [] 0) l = Some (t, os) -> nth_error l i = Some s -> nth_error l j = Some s ->
  nth_error os i = Some oi -> nth_error os j = Some oj -> oi = oj.
Proof. exact names_shared. Qed.
Print Assumptions C18_names_shared.

Example C18_names_example : exists t, name_add_all (mkNametab [] 0) [str "main"; str "x"; str "main"; str ""] = Some (t, [0; 5; 0; 7]).
Proof. eexists. reflexivity. Qed.

(* A section written by the RTTI table writer passes the reader's checks, and its rows are where the reader looks. *)
Theorem C18_tables : forall buf s w rws, 0 <= w -> Forall (fun r => blen r = w) rws -> 12 + w * Z.of_nat (length rws) < two32 ->
  Z.of_nat (length rws) < two32 -> w < two32 ->
  valid_section buf s = true -> sc_size s = blen (rtti_bytes w rws) -> section_bytes buf s = rtti_bytes w rws -> 0 <= sc_off s ->
  valid_rtti_header buf s = IGood true /\ row_total buf (sc_off s) = Z.of_nat (length rws) /\
  forall i r, nth_error rws i = Some r -> bytes_at buf (row_at buf (sc_off s) (Z.of_nat i)) r.
Proof. exact rtti_written. Qed.
Print Assumptions C18_tables.

(* Refuted: an empty section at the end of the image is found but not valid (elsewhere it is accepted); with 256 sections
   none is found. *)
Theorem C18_empty_refuted : forall inflate fresh stop, writable [code_sec; data_sec; sec ".names" []] /\
  validate_image inflate fresh stop (write_image [code_sec; data_sec; sec ".names" []]) = IBad "invalid names section" /\
  is_good (validate_image inflate fresh stop (write_image [sec ".names" []; code_sec; data_sec])) = true.
Proof. exact empty_last. Qed.
Print Assumptions C18_empty_refuted.

Theorem C18_many_refuted : length many = 256%nat /\ NoDup (map se_name many) /\ container (write_image many) = IGood [].
Proof. exact many_lost. Qed.
Print Assumptions C18_many_refuted.

(* C19: the line is the one of the last entry that starts at or before the address (lines are counted from 0 in the
   image); there is no answer exactly if there is no such entry. *)
Theorem C19_line : forall im, sound im -> forall a, sorted (im_buf im) (im_lines im) ->
  (exists i, last_start (im_buf im) (im_lines im) a i /\ lookup_line im a = IGood (Some (u32 (item_of (im_buf im) (im_lines im) i + 1)))) \/
  ((forall j, 0 <= j < tb_count (im_lines im) -> a < addr_of (im_buf im) (im_lines im) j) /\ lookup_line im a = IGood None).
Proof. exact line_final. Qed.
Print Assumptions C19_line.

Theorem C19_file : forall im, sound im -> bytes (im_buf im) -> forall a d, im_debug im = Some d -> sorted (im_buf im) (dg_files d) ->
  (exists i, last_start (im_buf im) (dg_files d) a i /\ let n := item_of (im_buf im) (dg_files d) i in
     lookup_file im a = IGood (if n <? sc_size (dg_names d) then Some (sc_off (dg_names d) + n) else None) /\
     (n < sc_size (dg_names d) -> exists s, string_at (im_buf im) (sc_off (dg_names d) + n) s)) \/
  ((forall j, 0 <= j < tb_count (dg_files d) -> a < addr_of (im_buf im) (dg_files d) j) /\ lookup_file im a = IGood None).
Proof. exact file_final. Qed.
Print Assumptions C19_file.

Theorem C19_function : forall im, sound im -> bytes (im_buf im) -> forall a types t k,
  im_rtti im = Some (types, t) -> covers im t k a -> (forall j, covers im t j a -> j = k) ->
  let o := sc_off (im_names im) + word_at (im_buf im) (row_at (im_buf im) t k) in
  lookup_function im a = IGood (Some o) /\ exists s, string_at (im_buf im) o s.
Proof. exact function_final. Qed.
Print Assumptions C19_function.

Example C19_example : exists im d, run methods_image = IGood im /\ im_debug im = Some d /\ info_room im /\
  sorted (im_buf im) (im_lines im) /\ sorted (im_buf im) (dg_files d) /\ tb_count (im_lines im) = 3 /\
  (exists types t, im_rtti im = Some (types, t) /\ covers im t 1 7 /\ forall j, covers im t j 7 -> j = 1).
Proof. exact methods_sorted. Qed.

(* C44: the address found for a line is that of an entry of the line table with at least that line.  Missing: that it is
   in the file asked for; refuted below. *)
Theorem C44_line_address_partial : forall im, sound im -> bytes (im_buf im) -> forall d line file,
  im_debug im = Some d -> Forall (fun c => c <> 0) file ->
  exists r, lookup_line_address im line file = IGood r /\
    match r with
    | None => True
    | Some a => exists j, 0 <= j < tb_count (dg_lines d) /\ a = addr_of (im_buf im) (dg_lines d) j /\ line <= item_of (im_buf im) (dg_lines d) j
    end.
Proof. exact line_address_final. Qed.
Print Assumptions C44_line_address_partial.

(* Line 5 of a.sp: the answer, 8, is in b.sp. *)
Theorem C44_line_address_refuted : exists im d, bytes methods_image /\ run methods_image = IGood im /\ im_debug im = Some d /\
  get_file_name im 0 = IGood (Some 316) /\ string_at (im_buf im) 316 (str "a.sp") /\ in_file_entry im (dg_files d) 1 8 /\
  lookup_line_address im 5 (str "a.sp") = IGood (Some 8) /\ (exists o, lookup_file im 8 = IGood (Some o) /\ string_at (im_buf im) o (str "b.sp")).
Proof. exact wrong_file. Qed.
Print Assumptions C44_line_address_refuted.

(* A function that does not exist has an address. *)
Theorem C44_function_address_refuted : forall rounds, exists im,
  run methods_image = IGood im /\ lookup_function_address rounds im (str "nosuch") (str "a.sp") = IGood (Some 0).
Proof. exact no_such_function. Qed.
Print Assumptions C44_function_address_refuted.

(* With the old symbol table, a function of another file: the search never ends. *)
Theorem C44_function_address_endless : exists im, bytes symbols_image /\ run symbols_image = IGood im /\
  (exists o, lookup_function im 8 = IGood (Some o) /\ string_at (im_buf im) o (str "print")) /\
  forall rounds, lookup_function_address rounds im (str "print") (str "a.sp") = ILoop.
Proof. exact endless. Qed.
Print Assumptions C44_function_address_endless.

(* The number of functions of an image is that of the first image ever asked. *)
Theorem C44_count_refuted : exists im, bytes symbols_image /\ run symbols_image = IGood im /\
  num_functions im 0 = IGood (1, 1) /\ num_functions im 7 = IGood (7, 7).
Proof. exact shared_count. Qed.
Print Assumptions C44_count_refuted.

(* Without debug information these questions follow a null pointer. *)
Theorem C44_no_debug_refuted : exists im, bytes (write_image basic) /\ run (write_image basic) = IGood im /\
  num_functions im 0 = IUndef UBMem /\ lookup_function_address 1 im (str "main") (str "a.sp") = IUndef UBMem /\
  lookup_line_address im 1 (str "a.sp") = IUndef UBMem.
Proof. exact no_symbols. Qed.
Print Assumptions C44_no_debug_refuted.
