(* C31: initialised arrays contain the values written in the source. *)
From Verif Require Import Base Small_Model Ai_Model Ai_Spec Ai_Proofs Ai_Leaf Ai_Reads Ai_Local Ai_Cases.
From Verif Require Import Rt_Model Interp_Model Rt_Spec.

(* C31, global arrays of cells, of any number of ranks: every accepted initialiser puts at each index tuple the value
   written there, and beyond the values written zero or the ellipsis' progression. *)
Theorem C31_global_cells : forall b outer n i data, 0 <= n -> valid (outer ++ [n]) (ECell b) i = true ->
  exists cells, EmitGlobalArray (outer ++ [n]) (ECell b) i data = Some (data ++ cells) /\
  forall m, stored m (4 * Z.of_nat (length data)) cells -> 4 * Z.of_nat (length (data ++ cells)) < two31 ->
  holds_cells outer n i m (4 * Z.of_nat (length data)).
Proof. exact global_cells. Qed.
Print Assumptions C31_global_cells.

(* C31, local arrays of cells: the declaration's code, HEAP then INITARRAY.ALT, builds that array in a new heap block,
   whatever the block held, and writes nothing else. *)
Theorem C31_local_cells : forall b outer n i data, 0 <= n -> valid (outer ++ [n]) (ECell b) i = true ->
  exists template heap iv copy fill,
    EmitLocalArray (outer ++ [n]) (ECell b) i true data = Some (data ++ template, heap, (4 * Z.of_nat (length data), iv, copy, fill)) /\
    forall strict fe natives mi s p a,
    layout s -> pointers_ok s -> is_i32 (frm s) -> is_i32 (hp_scope s) ->
    mem_size s mod 4 = 0 -> data_size s mod 4 = 0 -> hp s mod 4 = 0 ->
    4 * Z.of_nat (length (data ++ template)) <= data_size s -> stored (mem s) (4 * Z.of_nat (length data)) template ->
    0 < heap -> hp s + heap + 64 <= sp s ->
    exists i1 m', exec strict fe natives mi (HEAP heap) (mkIst s p a) = Ok tt i1 /\
      exec strict fe natives mi (INITARRAY Alt (4 * Z.of_nat (length data)) iv copy fill 0) i1 =
        Ok tt (mkIst (set_mem m' (set_hp (hp s + heap) s)) p (hp s)) /\
      holds_cells outer n i m' (hp s) /\
      (forall x, x < hp s \/ hp s + heap <= x -> m' x = mem s x).
Proof. exact local_cells. Qed.
Print Assumptions C31_local_cells.

(* "int x[n] = v" is n times v. *)
Theorem C31_scalar : forall b n v, 0 < n -> let i := Some (rewrite_scalar [n] (INum v)) in
  valid [n] (ECell b) i = true /\ forall k, 0 <= k < n -> Ai_Spec.cell_at i k = v.
Proof. exact demo_scalar. Qed.
Print Assumptions C31_scalar.

Example C31_cells_case : exists cells m, valid [2; 4] (ECell true) (Some demo_init) = true /\
  EmitGlobalArray [2; 4] (ECell true) (Some demo_init) [99] = Some ([99] ++ cells) /\ stored m 4 cells /\
  4 * Z.of_nat (length ([99] ++ cells)) < two31 /\
  load32 m (row m 4 [1] + 4 * 3) = 11 /\ load32 m (row m 4 [0] + 4 * 3) = 0.
Proof. exact demo_cells. Qed.
Example C31_local_case : valid [2; 20] (ECell true) (Some local_init) = true /\
  EmitLocalArray [2; 20] (ECell true) (Some local_init) true [] = Some (tpl, 168, (0, 2, 21, 19)) /\
  layout local_rt /\ pointers_ok local_rt /\ is_i32 (frm local_rt) /\ is_i32 (hp_scope local_rt) /\
  mem_size local_rt mod 4 = 0 /\ Rt_Model.data_size local_rt mod 4 = 0 /\ hp local_rt mod 4 = 0 /\
  4 * Z.of_nat (length tpl) <= Rt_Model.data_size local_rt /\ stored (mem local_rt) 0 tpl /\ hp local_rt + 168 + 64 <= sp local_rt.
Proof. exact demo_local. Qed.

(* C31, arrays of characters, 64-bit integers and enum structs as well.  Missing from the English property: the
   initialisers [plain] leaves out, each of which is refuted below. *)
Theorem C31_global_partial : forall e outer n i data, 0 <= n -> valid (outer ++ [n]) e i = true -> every_row outer i (plain e n) ->
  exists cells, EmitGlobalArray (outer ++ [n]) e i data = Some (data ++ cells) /\
  forall m, bytes_if e m -> stored m (4 * Z.of_nat (length data)) cells -> 4 * Z.of_nat (length (data ++ cells)) < two31 ->
  holds e outer n i m (4 * Z.of_nat (length data)).
Proof. exact global_holds. Qed.
Print Assumptions C31_global_partial.

Theorem C31_local_partial : forall e outer n i data, 0 <= n -> valid (outer ++ [n]) e i = true -> every_row outer i (plain e n) ->
  exists template heap iv copy fill,
    EmitLocalArray (outer ++ [n]) e i true data = Some (data ++ template, heap, (4 * Z.of_nat (length data), iv, copy, fill)) /\
    forall strict fe natives mi s p a,
    layout s -> pointers_ok s -> is_i32 (frm s) -> is_i32 (hp_scope s) ->
    mem_size s mod 4 = 0 -> data_size s mod 4 = 0 -> hp s mod 4 = 0 ->
    4 * Z.of_nat (length (data ++ template)) <= data_size s -> stored (mem s) (4 * Z.of_nat (length data)) template ->
    0 < heap -> hp s + heap + 64 <= sp s ->
    exists i1 m', exec strict fe natives mi (HEAP heap) (mkIst s p a) = Ok tt i1 /\
      exec strict fe natives mi (INITARRAY Alt (4 * Z.of_nat (length data)) iv copy fill 0) i1 =
        Ok tt (mkIst (set_mem m' (set_hp (hp s + heap) s)) p (hp s)) /\
      (bytes_if e m' -> holds e outer n i m' (hp s)) /\
      (forall x, x < hp s \/ hp s + heap <= x -> m' x = mem s x).
Proof. exact local_holds. Qed.
Print Assumptions C31_local_partial.

(* An enum struct that is not in an array. *)
Theorem C31_struct_partial : forall fs i, sized fs ->
  match i with Some x => valid_struct fs x = true /\ plain_struct fs x | None => True end ->
  exists s, BuildStructInitializer fs i = Some s /\
  forall m a, bytes_in m -> stored m a (cells_of s) -> holds_struct fs i m a.
Proof. exact struct_holds. Qed.
Print Assumptions C31_struct_partial.

Example C31_structs_case : let fs := [FCell; FChars 6; FCells 3] in
  let i := Some (IList [IList [INum 7; IStr [104; 105]; IList [INum 4] true] false; IList [INum 9] false] false) in
  exists cells m, valid [3] (EStruct fs) i = true /\ every_row [] i (plain (EStruct fs) 3) /\
  EmitGlobalArray [3] (EStruct fs) i [] = Some cells /\ stored m 0 cells /\ bytes_in m /\ 4 * Z.of_nat (length cells) < two31 /\
  m (4 * 1 + 1) = 105 /\ load32 m (4 * 5) = 4 /\ load32 m (4 * 6) = 9 /\ load32 m (4 * 12) = 0.
Proof. exact demo_structs. Qed.

(* "int64 a[4]; int b[1] = {7};": the array gets four cells, so a[2] is where b is. *)
Theorem C31_int64_short_refuted : exists data data' m,
  valid [4] EInt64 None = true /\ EmitGlobalArray [4] EInt64 None [] = Some data /\
  EmitGlobalArray [1] (ECell true) (Some (IList [INum 7] false)) data = Some data' /\ stored m 0 data' /\
  load64 m (8 * 2) = 7.
Proof. exact int64_short. Qed.
Print Assumptions C31_int64_short_refuted.

(* "int64 a[4] = {1, ...}": the ellipsis fills half cells. *)
Theorem C31_int64_ellipsis_refuted : exists data m, let i := Some (IList [INum 1] true) in
  valid [4] EInt64 i = true /\ EmitGlobalArray [4] EInt64 i [] = Some data /\ stored m 0 data /\ load64 m (8 * 1) = 1 + two32.
Proof. exact int64_ellipsis. Qed.
Print Assumptions C31_int64_ellipsis_refuted.

(* "char a[8] = {'h', 'i'}": each character takes a whole cell. *)
Theorem C31_char_list_refuted : exists data m, let i := Some (IList [INum 104; INum 105] false) in
  valid [8] EChar i = true /\ EmitGlobalArray [8] EChar i [] = Some data /\ stored m 0 data /\ bytes_in m /\ m 1 = 0 /\ m 4 = 105.
Proof. exact char_list. Qed.
Print Assumptions C31_char_list_refuted.

(* "enum struct E { char c[8]; int x; }  E e[1] = {{{'h'}, 5}};": the padding of c moves x away. *)
Theorem C31_struct_char_list_refuted : exists data m, let fs := [FChars 8; FCell] in
  let i := Some (IList [IList [IList [INum 104] false; INum 5] false] false) in
  valid [1] (EStruct fs) i = true /\ EmitGlobalArray [1] (EStruct fs) i [] = Some data /\ stored m 0 data /\
  offset fs 1 = 2 /\ load32 m (4 * 2) = 0.
Proof. exact struct_char_list. Qed.
Print Assumptions C31_struct_char_list_refuted.

(* "E e[3] = {{1}, ...}": accepted, but the compiler reads a previous value that is not there. *)
Theorem C31_struct_ellipsis_refuted : let fs := [FCell] in let i := Some (IList [IList [INum 1] false] true) in
  valid [3] (EStruct fs) i = true /\ BuildCompoundInitializer [3] (EStruct fs) i 0 = None.
Proof. exact struct_ellipsis. Qed.
Print Assumptions C31_struct_ellipsis_refuted.

(* The same with "int64 a[4] = {5000000000, ...}". *)
Theorem C31_literal_ellipsis_refuted : let i := Some (IList [INum64 5000000000] true) in
  valid [4] EInt64 i = true /\ BuildCompoundInitializer [4] EInt64 i 0 = None.
Proof. exact literal_ellipsis. Qed.
Print Assumptions C31_literal_ellipsis_refuted.

(* "E e[1] = {{1}, {2}}": more elements than the array has. *)
Theorem C31_struct_excess_refuted : exists data, let fs := [FCell] in
  let i := Some (IList [IList [INum 1] false; IList [INum 2] false] false) in
  valid [1] (EStruct fs) i = true /\ EmitGlobalArray [1] (EStruct fs) i [] = Some data /\ length data = 2%nat.
Proof. exact struct_excess. Qed.
Print Assumptions C31_struct_excess_refuted.

(* "decl int a[20]": eighty bytes of heap, none of them written. *)
Theorem C31_decl_refuted : exists heap iv copy fill,
  EmitLocalArray [20] (ECell true) None false [] = Some ([], heap, (0, iv, copy, fill)) /\
  heap = 80 /\ iv = 0 /\ copy = 0 /\ fill = 0.
Proof. exact decl_dirty. Qed.
Print Assumptions C31_decl_refuted.
