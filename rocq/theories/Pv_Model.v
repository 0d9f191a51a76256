(* Public variables as the host sees them: /repo/vm/plugin-runtime.cpp, vm/smx-image.cpp. *)
From Coq Require Import String.
From Verif Require Import Base Rt_Model Img_Model.
Local Open Scope list_scope.

(* An entry of the image's table of public variables: its name (ended by a zero in the image) and its address, an uint32
   (include/smx/smx-headers.h, sp_file_pubvars_t).  Image validation (Img_Model.validate_pubvars) looks at the name only. *)
Record pubvar := mkPubvar { pv_name : list Z; pv_addr : Z }.
(* The table, as the image is asked for it (smx-image.cpp:842-849 GetPubvar). *)
Fixpoint table_from (im : image) (n : nat) (i : Z) : ires (list pubvar) :=
  match n with
  | O => IGood []
  | S n' => p <-- get_pubvar im i;; name <-- cstr (im_buf im) (snd p);; r <-- table_from im n' (i + 1);; IGood (mkPubvar name (fst p) :: r)
  end.
Definition pubvars_of (im : image) : ires (list pubvar) := table_from im (Z.to_nat (tb_count (im_pubvars im))) 0.
(* plugin-runtime.h: hp_, sp_ and mem_size_. *)
Record limits := mkLimits { l_hp : Z; l_sp : Z; l_mem : Z }.
(* sp_vm_types.h:156-159 sp_pubvar_t: a pointer into the plugin's memory (given by its offset there; None is the null pointer)
   and the name, of which only whether it is set matters. *)
Record entry := mkEntry { e_offs : option Z; e_named : bool }.
Inductive pverr := EIndex | EAddress | ENotFound.

(* plugin-runtime.cpp:586-596 LocalToPhysAddr; [a] is a cell_t. *)
Definition phys (L : limits) (a : Z) : option Z :=
  if ((l_hp L <=? a) && (a <? l_sp L)) || (a <? 0) || (l_mem L <=? a) then None else Some a.

(* plugin-runtime.cpp:393-408 GetPubvarByIndex, with the table of entries it keeps (pubvars_); [inl] is the offs of the entry
   pointed to.  The uint32 offset is passed as a cell_t. *)
Fixpoint put {A} (i : nat) (x : A) (l : list A) : list A :=
  match l, i with [], _ => [] | _ :: r, O => x :: r | y :: r, S i => y :: put i x r end.
Definition by_index (img : list pubvar) (L : limits) (c : list entry) (i : nat) : (option Z + pverr) * list entry :=
  match nth_error img i with
  | None => (inr EIndex, c)
  | Some v =>
    let en := nth i c (mkEntry None false) in
    if e_named en then (inl (e_offs en), c)
    else match phys L (wrap32 (pv_addr v)) with
         | None => (inr EAddress, put i (mkEntry (e_offs en) true) c)
         | Some p => (inl (Some p), put i (mkEntry (Some p) true) c)
         end
  end.
(* smx-image.cpp:851-867 FindPubvar and plugin-runtime.cpp:411-419 FindPubvarByName: a later entry replaces an earlier one of
   the same name in the map. *)
Fixpoint find_from (img : list pubvar) (name : list Z) (i : nat) (found : option nat) : option nat :=
  match img with
  | [] => found
  | v :: r => find_from r name (S i) (if list_eq_dec Z.eq_dec (pv_name v) name then Some i else found)
  end.
Definition by_name (img : list pubvar) (name : list Z) : nat + pverr :=
  match find_from img name 0 None with Some k => inl k | None => inr ENotFound end.
(* plugin-runtime.cpp:422-433 GetPubvarAddrs: the local address and the pointer. *)
Definition addrs (img : list pubvar) (L : limits) (i : nat) : (Z * Z) + pverr :=
  match nth_error img i with
  | None => inr EIndex
  | Some v => match phys L (wrap32 (pv_addr v)) with None => inr EAddress | Some p => inl (wrap32 (pv_addr v), p) end
  end.

(* plugin-runtime.cpp:122-138, in Initialize: the null references.  When GetPubvarByIndex refuses, the pointer it was to set is
   read without having been set. *)
Inductive loaded := Loaded (vec str : option Z) (c : list entry) | LUndef (u : ub).
Definition null_ref (img : list pubvar) (L : limits) (name : list Z) (c : list entry) : (option Z * list entry) + ub :=
  match by_name img name with
  | inr _ => inl (None, c)
  | inl k => match by_index img L c k with (inl o, c) => inl (o, c) | (inr _, _) => inr UBMem end
  end.
Definition NULL_VECTOR := str "NULL_VECTOR"%string.
Definition NULL_STRING := str "NULL_STRING"%string.
(* The limits are those of the constructor (60-61). *)
Definition initial (data size : Z) : limits := mkLimits data (size - 4) size.
Definition initialize (img : list pubvar) (data size : Z) : loaded :=
  let c := repeat (mkEntry None false) (length img) in
  match null_ref img (initial data size) NULL_VECTOR c with
  | inr u => LUndef u
  | inl (vec, c) =>
    match null_ref img (initial data size) NULL_STRING c with
    | inr u => LUndef u
    | inl (s, c) => Loaded vec s c
    end
  end.
(* plugin-runtime.cpp:700-708 LocalToStringNULL: the pointer, null for the null string. *)
Definition string_or_null (nul : option Z) (L : limits) (a : Z) : option Z + pverr :=
  match phys L a with
  | None => inr EAddress
  | Some p => inl (match nul with Some q => if p =? q then None else Some p | None => Some p end)
  end.

(* What a host asks, over time. *)
Inductive request := ByIndex (i : nat) | ByName (name : list Z) | Addrs (i : nat) | StringAt (a : Z).
Inductive answer := APtr (p : option Z) | AIndex (i : nat) | AAddr (a p : Z) | ANo (e : pverr).
Definition ask (img : list pubvar) (nul : option Z) (L : limits) (c : list entry) (r : request) : answer * list entry :=
  match r with
  | ByIndex i => match by_index img L c i with (inl p, c) => (APtr p, c) | (inr e, c) => (ANo e, c) end
  | ByName n => (match by_name img n with inl k => AIndex k | inr e => ANo e end, c)
  | Addrs i => (match addrs img L i with inl (a, p) => AAddr a p | inr e => ANo e end, c)
  | StringAt a => (match string_or_null nul L a with inl p => APtr p | inr e => ANo e end, c)
  end.
Fixpoint asks (img : list pubvar) (nul : option Z) (c : list entry) (h : list (limits * request)) : list answer :=
  match h with
  | [] => []
  | (L, r) :: h => let (a, c) := ask img nul L c r in a :: asks img nul c h
  end.

(* Loading an accepted image: data_size_ is the length of its data, mem_size_ follows from the memsize field
   (plugin-runtime.cpp:48-58; Rt_Model.initial_mem_size). *)
Definition load_image (im : image) : ires loaded :=
  img <-- pubvars_of im;; heap <-- rd4 (im_buf im) (sc_off (bl_section (im_data im)) + 4);;
  IGood (initialize img (bl_size (im_data im)) (initial_mem_size (bl_size (im_data im)) heap)).
