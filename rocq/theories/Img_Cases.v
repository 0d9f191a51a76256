(* The statements of C17, C18, C19 and C44 in their final form, and the images that refute the stronger ones. *)
From Coq Require Import ZifyBool.
From Coq Require String. Import String.StringSyntax.
From Verif Require Import Base Base_Proofs Rtti_Model Rt_Model Img_Model Img_Spec Img_Proofs Img_Safe Img_Accept Img_Write.
Local Open Scope string_scope.
Local Open Scope Z_scope.

(* ---- C17: what the host can ask for. ---- *)
Section Ask.
Variable im : image.
Hypothesis SO : sound im.
Hypothesis B : bytes (im_buf im).
Notation buf := (im_buf im).

Lemma list_name_called t w at_ i o s : list_name im t w at_ i = IGood o -> string_at buf o s -> entry_called im t w at_ i s.
Proof.
  unfold list_name, entry_called. intros H St. destruct (_ <=? i); [discriminate|]. igood H x E. apply rd4_good in E as (-> & _).
  injection H as <-. exact St.
Qed.

Lemma get_all_named :
  (forall i, 0 <= i < tb_count (im_natives im) -> exists o s, get_native im i = IGood o /\ string_at buf o s) /\
  (forall i, 0 <= i < tb_count (im_publics im) -> exists a o s, get_public im i = IGood (a, o) /\ string_at buf o s) /\
  (forall i, 0 <= i < tb_count (im_pubvars im) -> exists a o s, get_pubvar im i = IGood (a, o) /\ string_at buf o s).
Proof.
  split; [|split]; intros i I; [apply get_native_ok|apply get_public_ok|apply get_pubvar_ok]; assumption.
Qed.

Lemma find_native_first name : Forall (fun c => c <> 0) name -> exists r, find_native im name = IGood r /\
  match r with
  | Some k => 0 <= k < tb_count (im_natives im) /\ entry_called im (im_natives im) 4 0 k name /\
              forall j, 0 <= j < k -> entry_not_called im (im_natives im) 4 0 j name
  | None => forall j, 0 <= j < tb_count (im_natives im) -> entry_not_called im (im_natives im) 4 0 j name
  end.
Proof.
  intros NZ. pose proof SO as (_ & _ & [N _] & _).
  destruct (find_native_from_ok im SO name NZ (Z.to_nat (tb_count (im_natives im))) 0) as (r & R & X); [lia|lia|].
  assert (G : forall j, (exists o s, get_native im j = IGood o /\ string_at buf o s /\ s <> name) -> entry_not_called im (im_natives im) 4 0 j name).
  { intros j (o & s & E & St & D). exists s. split; [|exact D]. exact (list_name_called _ _ _ _ _ _ E St). }
  exists r. split; [exact R|]. destruct r as [k|]; [|auto]. destruct X as (X1 & (o & E & St) & X3).
  split; [exact X1|]. split; [exact (list_name_called _ _ _ _ _ _ E St)|auto].
Qed.

Lemma find_last_final t name : named_list im t 8 4 -> exists r, find_last_from im t name (Z.to_nat (tb_count t)) 0 None = IGood r /\
  match r with
  | Some k => 0 <= k < tb_count t /\ entry_called im t 8 4 k name /\ forall j, k < j < tb_count t -> entry_not_called im t 8 4 j name
  | None => forall j, 0 <= j < tb_count t -> entry_not_called im t 8 4 j name
  end.
Proof.
  intros N. destruct (find_last_ok im t name N (Z.to_nat (tb_count t)) 0 None) as (r & R & X); [lia|destruct N; lia|intros j J; lia|].
  assert (G : forall j, not_called im t j name -> entry_not_called im t 8 4 j name).
  { intros j (s & (o & E & St) & D). exists s. split; [|exact D]. exact (list_name_called _ _ _ _ _ _ E St). }
  exists r. split; [exact R|]. destruct r as [k|]; cbn in X; [|auto]. destruct X as (X1 & (o & E & St) & X3).
  split; [exact X1|]. split; [exact (list_name_called _ _ _ _ _ _ E St)|auto].
Qed.

Lemma find_public_last name : exists r, find_public im name = IGood r /\
  match r with
  | Some k => 0 <= k < tb_count (im_publics im) /\ entry_called im (im_publics im) 8 4 k name /\
              forall j, k < j < tb_count (im_publics im) -> entry_not_called im (im_publics im) 8 4 j name
  | None => forall j, 0 <= j < tb_count (im_publics im) -> entry_not_called im (im_publics im) 8 4 j name
  end.
Proof. apply find_last_final. apply SO. Qed.
Lemma find_pubvar_last name : exists r, find_pubvar im name = IGood r /\
  match r with
  | Some k => 0 <= k < tb_count (im_pubvars im) /\ entry_called im (im_pubvars im) 8 4 k name /\
              forall j, k < j < tb_count (im_pubvars im) -> entry_not_called im (im_pubvars im) 8 4 j name
  | None => forall j, 0 <= j < tb_count (im_pubvars im) -> entry_not_called im (im_pubvars im) 8 4 j name
  end.
Proof. apply find_last_final. apply SO. Qed.

(* ---- C19. ---- *)
Lemma line_final a : sorted buf (im_lines im) ->
  (exists i, last_start buf (im_lines im) a i /\ lookup_line im a = IGood (Some (u32 (item_of buf (im_lines im) i + 1)))) \/
  ((forall j, 0 <= j < tb_count (im_lines im) -> a < addr_of buf (im_lines im) j) /\ lookup_line im a = IGood None).
Proof.
  intros S'. pose proof (table_of_lines im SO) as T. unfold lookup_line.
  destruct (lookup_index_sorted buf (im_lines im) a T S') as [(i & L & E)|(N & E)]; rewrite E; cbn [ibind].
  - left. exists i. split; [exact L|]. destruct L as (L & _). destruct (i =? -1) eqn:Q; [lia|].
    destruct T as (T1 & T2 & _ & T3). rewrite rd4_ok by lia. reflexivity.
  - right. split; [exact N|reflexivity].
Qed.

Lemma file_final a d : im_debug im = Some d -> sorted buf (dg_files d) ->
  (exists i, last_start buf (dg_files d) a i /\ let n := item_of buf (dg_files d) i in
     lookup_file im a = IGood (if n <? sc_size (dg_names d) then Some (sc_off (dg_names d) + n) else None) /\
     (n < sc_size (dg_names d) -> exists s, string_at buf (sc_off (dg_names d) + n) s)) \/
  ((forall j, 0 <= j < tb_count (dg_files d) -> a < addr_of buf (dg_files d) j) /\ lookup_file im a = IGood None).
Proof.
  intros D S'. pose proof (table_of_files im SO) as T. unfold lookup_file, im_files in *. rewrite D in *.
  destruct (lookup_index_sorted buf (dg_files d) a T S') as [(i & L & E)|(N & E)]; rewrite E; cbn [ibind].
  - left. exists i. split; [exact L|]. destruct L as (L & _). destruct (i =? -1) eqn:Q; [lia|].
    destruct T as (T1 & T2 & _ & T3). rewrite rd4_ok by lia. cbn [ibind]. cbv zeta. fold (item_of buf (dg_files d) i).
    unfold debug_name, im_dnames. rewrite D. cbn [ibind]. split.
    + destruct (_ <=? _) eqn:Q1, (_ <? _) eqn:Q2; try reflexivity; lia.
    + intros Lt. destruct SO as (_ & _ & _ & _ & _ & _ & _ & X). destruct (X d D) as (_ & _ & F & _).
      assert (0 <= item_of buf (dg_files d) i) by (apply (word_range buf _ B)). destruct (F (item_of buf (dg_files d) i) ltac:(lia)) as (s & St & _). eauto.
  - right. split; [exact N|reflexivity].
Qed.

Lemma function_final a types t k : im_rtti im = Some (types, t) -> covers im t k a -> (forall j, covers im t j a -> j = k) ->
  let o := sc_off (im_names im) + word_at buf (row_at buf t k) in lookup_function im a = IGood (Some o) /\ exists s, string_at buf o s.
Proof.
  intros R C U. destruct (method_by_offset_ok im SO B a) as (r & E & X). unfold lookup_function. rewrite E. cbn [ibind]. destruct r as [o|].
  - destruct X as (types' & t' & k' & R' & K & -> & Cv & _). rewrite R in R'. injection R' as <- <-.
    rewrite (U k' (conj K Cv)) in *. destruct SO as (_ & _ & _ & _ & _ & _ & M & _).
    destruct (proj2 (M types t R) k (proj1 C)) as [(I1 & I2 & I3) (s & St & _)]. rewrite rd4_ok by lia. cbn [ibind].
    split; [reflexivity|]. exists s. exact St.
  - exfalso. destruct C as [C1 C2]. exact (X types t k R C1 C2).
Qed.

(* ---- C44. ---- *)
Lemma line_address_final d line file : im_debug im = Some d -> Forall (fun c => c <> 0) file ->
  exists r, lookup_line_address im line file = IGood r /\
    match r with
    | None => True
    | Some a => exists j, 0 <= j < tb_count (dg_lines d) /\ a = addr_of buf (dg_lines d) j /\ line <= item_of buf (dg_lines d) j
    end.
Proof.
  intros D NZ. unfold lookup_line_address. rewrite D. pose proof (table_of_files im SO) as T. pose proof (table_of_lines im SO) as T'.
  unfold im_files, im_lines in *. rewrite D in *. destruct T as (T & _), T' as (T' & _).
  apply (line_address_from_ok im SO B d line file D NZ); lia.
Qed.
End Ask.

(* ---- Concrete images. ---- *)
Definition no_inflate (_ : list Z) (_ : Z) : zres := ZError.
Definition zeros (n : Z) : list Z := repeat 0 (Z.to_nat n).
Lemma no_inflate_zlib : zlib no_inflate. Proof. intros i r o H. discriminate. Qed.
Lemma zeros_allocator : allocator zeros.
Proof.
  intros n N. unfold zeros, blen. rewrite repeat_length. split; [|lia]. apply Forall_forall. intros x X. apply repeat_spec in X as ->. unfold is_byte. lia.
Qed.

Definition is_good {A} (r : ires A) : bool := match r with IGood _ => true | _ => false end.
Lemma good_exists {A} (r : ires A) : is_good r = true -> exists a, r = IGood a.
Proof. destruct r; try discriminate. eauto. Qed.
Definition ask {A} (f : image -> A) (r : ires image) : option A := match r with IGood im => Some (f im) | _ => None end.
Lemma ask_some {A} (f : image -> A) r x : ask f r = Some x -> exists im, r = IGood im /\ f im = x.
Proof. destruct r; try discriminate. intros H. injection H as <-. eauto. Qed.

Definition all_bytes (l : list Z) : bool := forallb (fun b => (0 <=? b) && (b <? 256)) l.
Lemma all_bytes_ok l : all_bytes l = true -> bytes l.
Proof. unfold all_bytes, bytes. rewrite forallb_forall, Forall_forall. intros H x X. specialize (H x X). unfold is_byte. lia. Qed.

Definition sec (name : String.string) (b : list Z) : section := mkSection (str name) b.
Definition code_sec : section := sec ".code" (le4 8 ++ [4; 13] ++ le2 0 ++ le4 0 ++ le4 20 ++ le4 0 ++ le4 46 ++ le4 48).
Definition data_sec : section := sec ".data" (le4 4 ++ le4 4096 ++ le4 12 ++ le4 7).
Definition names_sec : section := sec ".names" (str "main" ++ [0] ++ str "print" ++ [0] ++ str "a.sp" ++ [0] ++ str "b.sp" ++ [0]).
Definition basic : list section := [code_sec; data_sec; names_sec; sec ".publics" (le4 0 ++ le4 0); sec ".natives" (le4 5)].

Lemma basic_writable : writable basic.
Proof.
  split; [cbn; lia|]. split.
  { unfold basic. cbn [map]. repeat constructor; cbn; intros H; repeat (destruct H as [H|H]; [discriminate|]); exact H. }
  split; [|vm_compute; reflexivity]. unfold basic.
  repeat (apply Forall_cons; [split; [apply all_bytes_ok; vm_compute; reflexivity|split; [|apply all_bytes_ok; vm_compute; reflexivity]];
    apply Forall_forall; intros c C; cbn in C; repeat (destruct C as [C|C]; [lia|]); contradiction|]). apply Forall_nil.
Qed.

(* Methods, natives and debug tables. *)
Definition info (files lines syms : Z) : section := sec ".dbg.info" (le4 files ++ le4 lines ++ le4 syms).
Definition files_sec : section := sec ".dbg.files" (le4 0 ++ le4 11 ++ le4 8 ++ le4 16).
Definition lines_sec : section := sec ".dbg.lines" (le4 0 ++ le4 2 ++ le4 4 ++ le4 3 ++ le4 8 ++ le4 9).
Definition symbol (addr cstart cend name : Z) : list Z := le4 addr ++ le2 0 ++ le4 cstart ++ le4 cend ++ [9; 0] ++ le2 0 ++ le4 name.
Definition types_sec : section := sec "rtti.data" [50; 0; 112].
Definition method_row (name cstart cend : Z) : list Z := le4 name ++ le4 cstart ++ le4 cend ++ le4 0.
Definition rtti_secs (methods : list (list Z)) : list section :=
  [types_sec; sec "rtti.natives" (rtti_bytes 8 [le4 5 ++ le4 0]); sec "rtti.methods" (rtti_bytes 16 methods)].
Definition symbols_image : list Z :=
  write_image (basic ++ [files_sec; lines_sec; sec ".dbg.symbols" (symbol 8 8 12 5); info 2 3 1]).
Definition methods_image : list Z :=
  write_image (basic ++ rtti_secs [method_row 0 0 4; method_row 5 4 12] ++ [files_sec; lines_sec; info 2 3 0]).
Notation run := (validate_image no_inflate zeros false).

Lemma run_bytes file : all_bytes file = true -> forall im, run file = IGood im -> sound im /\ bytes (im_buf im).
Proof. intros A im H. exact (validate_sound _ _ _ _ _ no_inflate_zlib zeros_allocator (all_bytes_ok _ A) H). Qed.

(* An image that meets the hypotheses: it has everything. *)
Definition roomy_check (buf : list Z) : bool :=
  forallb (fun k => let i := Z.of_nat k in match cstr buf (entry_name buf i) with
    | IGood name =>
      forallb (fun e => implb (if list_eq_dec Z.eq_dec (fst e) name then true else false) (entry_off buf i + snd e <=? blen buf)) headers &&
      forallb (fun e => implb (if list_eq_dec Z.eq_dec (fst e) name then true else false)
        ((snd e <=? word_at buf (entry_off buf i + 4)) || (entry_off buf i + entry_size buf i + snd e <=? blen buf))) rows
    | _ => false
    end) (seq 0 (Z.to_nat (byte_at buf 15))).
Lemma roomy_check_ok buf : roomy_check buf = true -> roomy buf.
Proof.
  unfold roomy_check. rewrite forallb_forall. intros H i name w I St. specialize (H (Z.to_nat i)). rewrite in_seq in H.
  specialize (H ltac:(lia)). cbv zeta in H. rewrite Z2Nat.id in H by lia. rewrite (cstr_string _ _ _ St) in H. apply andb_true_iff in H as [H1 H2].
  rewrite forallb_forall in H1, H2. split; intros M.
  - specialize (H1 (name, w) M). cbn [fst snd] in H1. destruct (list_eq_dec Z.eq_dec name name); [|congruence]. cbn in H1. lia.
  - specialize (H2 (name, w) M). cbn [fst snd] in H2. destruct (list_eq_dec Z.eq_dec name name); [|congruence]. cbn in H2. lia.
Qed.
Lemma methods_honest : zlib no_inflate /\ allocator zeros /\ bytes methods_image /\ honest_offsets methods_image /\
  (forall buf, load no_inflate zeros methods_image = IGood buf -> roomy buf).
Proof.
  split; [exact no_inflate_zlib|]. split; [exact zeros_allocator|].
  split; [apply all_bytes_ok; vm_compute; reflexivity|]. split.
  - split; intros _; vm_compute; discriminate.
  - intros buf H. assert (E : load no_inflate zeros methods_image = IGood methods_image) by (vm_compute; reflexivity).
    rewrite E in H. injection H as <-. apply roomy_check_ok. vm_compute. reflexivity.
Qed.
Lemma methods_sorted : exists im d, run methods_image = IGood im /\ im_debug im = Some d /\ info_room im /\
  sorted (im_buf im) (im_lines im) /\ sorted (im_buf im) (dg_files d) /\ tb_count (im_lines im) = 3 /\
  (exists types t, im_rtti im = Some (types, t) /\ covers im t 1 7 /\ forall j, covers im t j 7 -> j = 1).
Proof.
  assert (H : ask (fun im => match im_rtti im, im_debug im with
     | Some (_, t), Some d => Some (dg_info d + 12 <=? blen (im_buf im), 0 <=? dg_info d,
         (tb_count (im_lines im), map (addr_of (im_buf im) (im_lines im)) [0; 1; 2]), (tb_count (dg_files d), map (addr_of (im_buf im) (dg_files d)) [0; 1]),
         (row_total (im_buf im) t, map (fun k => (word_at (im_buf im) (row_at (im_buf im) t k + 4), word_at (im_buf im) (row_at (im_buf im) t k + 8))) [0; 1]))
     | _, _ => None end) (run methods_image) = Some (Some (true, true, (3, [0; 4; 8]), (2, [0; 8]), (2, [(0, 4); (4, 12)])))) by (vm_compute; reflexivity).
  apply ask_some in H as (im & E & H). destruct (im_rtti im) as [[types t]|] eqn:R; [|discriminate]. destruct (im_debug im) as [d|] eqn:D; [|discriminate].
  exists im, d. assert (H' := f_equal (fun o => match o with Some x => x | None => (false, false, (0, []), (0, []), (0, [])) end) H). cbv beta iota in H'. clear H.
  apply pair_equal_spec in H' as [H H5]. apply pair_equal_spec in H as [H H4]. apply pair_equal_spec in H as [H H3]. apply pair_equal_spec in H as [H1 H2].
  apply pair_equal_spec in H3 as [L1 L2]. apply pair_equal_spec in H4 as [F1 F2]. apply pair_equal_spec in H5 as [M1 M2].
  cbn [map] in L2, F2, M2.
  assert (nth0 : forall (A : Type) (l l' : list A) k x, l = l' -> nth k l x = nth k l' x) by (intros; subst; reflexivity).
  pose proof (nth0 _ _ _ 0%nat 0 L2) as A0. pose proof (nth0 _ _ _ 1%nat 0 L2) as A1. pose proof (nth0 _ _ _ 2%nat 0 L2) as A2.
  pose proof (nth0 _ _ _ 0%nat 0 F2) as B0. pose proof (nth0 _ _ _ 1%nat 0 F2) as B1.
  pose proof (nth0 _ _ _ 0%nat (0, 0) M2) as C0. pose proof (nth0 _ _ _ 1%nat (0, 0) M2) as C1.
  cbn [nth] in A0, A1, A2, B0, B1, C0, C1. apply pair_equal_spec in C0 as [C0 C0'], C1 as [C1 C1'].
  split; [exact E|]. split; [exact D|]. split. { intros d' D'. rewrite D in D'. injection D' as <-. lia. }
  split. { intros i j I J. rewrite L1 in J. assert (i = 0 \/ i = 1 \/ i = 2) as [-> |[-> | ->]] by lia; assert (j = 0 \/ j = 1 \/ j = 2) as [-> |[-> | ->]] by lia; lia. }
  split. { intros i j I J. rewrite F1 in J. assert (i = 0 \/ i = 1) as [-> | ->] by lia; assert (j = 0 \/ j = 1) as [-> | ->] by lia; lia. }
  split; [exact L1|]. exists types, t. split; [exact R|]. split; [unfold covers; lia|]. intros j [J1 J2]. rewrite M1 in J1.
  assert (j = 0 \/ j = 1) as [-> | ->] by lia; lia.
Qed.

Lemma methods_answers : exists im, run methods_image = IGood im /\
  (get_native im 0 = IGood 310 /\ find_native im (str "print") = IGood (Some 0) /\ find_public im (str "main") = IGood (Some 0) /\ find_public im (str "print") = IGood None) /\
  (map (lookup_line im) [0; 3; 4; 7; 8; 100] = [IGood (Some 3); IGood (Some 3); IGood (Some 4); IGood (Some 4); IGood (Some 10); IGood (Some 10)] /\
   map (lookup_file im) [0; 7; 8] = [IGood (Some 316); IGood (Some 316); IGood (Some 321)] /\
   map (lookup_function im) [0; 3; 4; 12] = [IGood (Some 305); IGood (Some 305); IGood (Some 310); IGood None]).
Proof.
  assert (H : ask (fun im => ((get_native im 0, find_native im (str "print"), find_public im (str "main"), find_public im (str "print")),
     (map (lookup_line im) [0; 3; 4; 7; 8; 100], map (lookup_file im) [0; 7; 8], map (lookup_function im) [0; 3; 4; 12]))) (run methods_image) =
    Some ((IGood 310, IGood (Some 0), IGood (Some 0), IGood None),
      ([IGood (Some 3); IGood (Some 3); IGood (Some 4); IGood (Some 4); IGood (Some 10); IGood (Some 10)],
       [IGood (Some 316); IGood (Some 316); IGood (Some 321)],
       [IGood (Some 305); IGood (Some 305); IGood (Some 310); IGood None]))) by (vm_compute; reflexivity).
  apply ask_some in H as (im & E & H). exists im. split; [exact E|].
  apply pair_equal_spec in H as [H1 H2]. apply pair_equal_spec in H1 as [H1 D]. apply pair_equal_spec in H1 as [H1 C]. apply pair_equal_spec in H1 as [A B].
  apply pair_equal_spec in H2 as [H2 G]. apply pair_equal_spec in H2 as [F1 F2].
  exact (conj (conj A (conj B (conj C D))) (conj F1 (conj F2 G))).
Qed.

(* ---- Images that make validation read outside. ---- *)
Definition gap_image : list Z := le4 FILE_MAGIC ++ le2 0x0102 ++ [0] ++ le4 26 ++ le4 26 ++ [0] ++ le4 24 ++ le4 100 ++ [1; 1].
Definition short_code : list section := [names_sec; sec ".code" [8; 0; 0; 0; 4]].
Definition short_data : list section := [names_sec; code_sec; sec ".data" [8; 0; 0; 0]].
Definition no_rows : list section := basic ++ [types_sec; sec "rtti.natives" (rtti_bytes 8 []); sec "rtti.methods" (le4 12 ++ le4 0 ++ le4 1)].
Lemma validate_outside inflate fresh stop : Forall (fun file => bytes file /\ validate_image inflate fresh stop file = IUndef UBMem)
  [gap_image; write_image short_code; write_image short_data; write_image no_rows].
Proof.
  repeat (apply Forall_cons; [split; [apply all_bytes_ok; vm_compute; reflexivity|destruct stop; vm_compute; reflexivity]|]). apply Forall_nil.
Qed.

(* A compressed image that claims to end one byte before its compressed part. *)
Definition cut_image : list Z := le4 FILE_MAGIC ++ le2 0x0102 ++ [1] ++ le4 23 ++ le4 26 ++ [0] ++ le4 24 ++ le4 24.
Lemma cut_outside inflate fresh stop : inflate [] 2 = ZMore -> bytes cut_image /\ validate_image inflate fresh stop cut_image = IUndef UBMem.
Proof.
  intros H. split; [apply all_bytes_ok; vm_compute; reflexivity|]. unfold validate_image.
  assert (L : load inflate fresh cut_image = decompress inflate fresh cut_image) by reflexivity. rewrite L. clear L. unfold decompress.
  change (rd4 cut_image 7) with (IGood 23). change (rd4 cut_image 11) with (IGood 26). change (rd4 cut_image 20) with (IGood 24). cbn [ibind].
  change (blen cut_image) with 24. change (24 <? 23) with false. change (24 <? 24) with false. change (24 <? HDR) with false. change (26 <? 24) with false. cbv iota zeta.
  change (skipn (Z.to_nat 24) cut_image) with (@nil Z). rewrite firstn_nil. change (26 - 24) with 2. rewrite H.
  change (blen [] <? u32 (23 - 24)) with true. reflexivity.
Qed.

(* With debug breaks: debug tables without type data. *)
Definition globals_image : list Z :=
  write_image (basic ++ [files_sec; lines_sec; info 2 3 0; sec ".dbg.globals" (rtti_bytes 21 [le4 0 ++ [0] ++ le4 0 ++ le4 0 ++ le4 4 ++ le4 0])]).
Definition debug_methods_image : list Z :=
  write_image (basic ++ [files_sec; lines_sec; info 2 3 0; sec ".dbg.methods" (rtti_bytes 8 [le4 0 ++ le4 0])]).
Lemma stop_outside inflate fresh : Forall (fun file => bytes file /\ validate_image inflate fresh true file = IUndef UBMem)
  [globals_image; debug_methods_image].
Proof.
  repeat (apply Forall_cons; [split; [apply all_bytes_ok; vm_compute; reflexivity|vm_compute; reflexivity]|]). apply Forall_nil.
Qed.

(* An accepted image on which asking for a function reads outside. *)
Definition short_info : list Z :=
  write_image (basic ++ [files_sec; lines_sec; sec ".dbg.symbols" (symbol 8 8 12 5); sec ".dbg.info" (le4 2 ++ le4 3)]).
Lemma info_outside : exists im, bytes short_info /\ run short_info = IGood im /\ lookup_function im 0 = IUndef UBMem.
Proof.
  assert (H : ask (fun im => lookup_function im 0) (run short_info) = Some (IUndef UBMem)) by (vm_compute; reflexivity).
  apply ask_some in H as (im & E & H). exists im. split; [apply all_bytes_ok; vm_compute; reflexivity|auto].
Qed.

(* ---- C18. ---- *)
Lemma written_found secs inflate fresh : writable secs ->
  load inflate fresh (write_image secs) = IGood (write_image secs) /\
  exists table, container (write_image secs) = IGood table /\
    (forall s, In s secs -> exists e, find_section (write_image secs) table (se_name s) = IGood (Some e) /\
      section_bytes (write_image secs) e = se_bytes s /\ sc_size e = blen (se_bytes s) /\
      (se_bytes s <> [] -> valid_section (write_image secs) e = true)) /\
    (forall name, Forall (fun c => c <> 0) name -> ~ In name (map se_name secs) -> find_section (write_image secs) table name = IGood None).
Proof.
  intros W. split; [apply load_written; exact W|]. exists (written_table secs). split; [apply container_written; exact W|].
  split; [intros s; apply find_written; exact W|intros name; apply find_absent; exact W].
Qed.

Lemma empty_last inflate fresh stop : writable [code_sec; data_sec; sec ".names" []] /\
  validate_image inflate fresh stop (write_image [code_sec; data_sec; sec ".names" []]) = IBad "invalid names section" /\
  is_good (validate_image inflate fresh stop (write_image [sec ".names" []; code_sec; data_sec])) = true.
Proof.
  split; [|split; destruct stop; vm_compute; reflexivity].
  pose proof basic_writable as (_ & _ & F & _). inversion F as [|? ? F1 F2]; subst. inversion F2 as [|? ? F3 F4]; subst. inversion F4 as [|? ? F5 _]; subst.
  split; [cbn; lia|]. split.
  { cbn [map]. repeat constructor; cbn; intros H; repeat (destruct H as [H|H]; [discriminate|]); exact H. }
  split; [|vm_compute; reflexivity]. apply Forall_cons; [exact F1|]. apply Forall_cons; [exact F3|]. apply Forall_cons; [|apply Forall_nil].
  destruct F5 as (N1 & N2 & _). split; [exact N1|]. split; [exact N2|constructor].
Qed.

(* 256 sections: the count does not fit its byte, and none is found. *)
Definition many : list section := map (fun k => mkSection [1 + Z.of_nat k / 16; 1 + Z.of_nat k mod 16] [Z.of_nat k mod 256]) (seq 0 256).
Definition distinct (l : list (list Z)) : bool :=
  (fix go l := match l with [] => true | x :: r => negb (existsb (fun y => if list_eq_dec Z.eq_dec x y then true else false) r) && go r end) l.
Lemma distinct_ok l : distinct l = true -> NoDup l.
Proof.
  induction l as [|x l IH]; intros H; [constructor|]. cbn in H. apply andb_true_iff in H as [H1 H2]. constructor; [|apply IH; exact H2].
  intros I. apply negb_true_iff in H1. rewrite (proj2 (existsb_exists _ _)) in H1; [discriminate|]. exists x. split; [exact I|].
  destruct (list_eq_dec Z.eq_dec x x); congruence.
Qed.
Lemma many_lost : length many = 256%nat /\ NoDup (map se_name many) /\ container (write_image many) = IGood [].
Proof. split; [reflexivity|]. split; [apply distinct_ok|]; vm_compute; reflexivity. Qed.

(* ---- C44. ---- *)
Lemma wrong_file : exists im d, bytes methods_image /\ run methods_image = IGood im /\ im_debug im = Some d /\
  get_file_name im 0 = IGood (Some 316) /\ string_at (im_buf im) 316 (str "a.sp") /\ in_file_entry im (dg_files d) 1 8 /\
  lookup_line_address im 5 (str "a.sp") = IGood (Some 8) /\ (exists o, lookup_file im 8 = IGood (Some o) /\ string_at (im_buf im) o (str "b.sp")).
Proof.
  assert (H : ask (fun im => match im_debug im with Some d => (tb_count (dg_files d), addr_of (im_buf im) (dg_files d) 1,
      get_file_name im 0, firstn 5 (skipn 316 (im_buf im)), lookup_line_address im 5 (str "a.sp"), lookup_file im 8, firstn 5 (skipn 321 (im_buf im))) 
      | None => (0, 0, ILoop, [], ILoop, ILoop, []) end) (run methods_image) =
    Some (2, 8, IGood (Some 316), str "a.sp" ++ [0], IGood (Some 8), IGood (Some 321), str "b.sp" ++ [0])) by (vm_compute; reflexivity).
  apply ask_some in H as (im & E & H). destruct (im_debug im) as [d|] eqn:D; [|discriminate]. exists im, d.
  apply pair_equal_spec in H as [H H7]. apply pair_equal_spec in H as [H H6]. apply pair_equal_spec in H as [H H5]. apply pair_equal_spec in H as [H H4].
  apply pair_equal_spec in H as [H H3]. apply pair_equal_spec in H as [H1 H2].
  split; [apply all_bytes_ok; vm_compute; reflexivity|]. split; [exact E|]. split; [exact D|]. split; [exact H3|].
  split. { split; [lia|]. split; [exact H4|]. cbn. repeat (apply Forall_cons; [lia|]). apply Forall_nil. }
  split. { unfold in_file_entry. rewrite H1, H2. lia. }
  split; [exact H5|]. exists 321. split; [exact H6|]. split; [lia|]. split; [exact H7|]. cbn. repeat (apply Forall_cons; [lia|]). apply Forall_nil.
Qed.

Lemma no_such_function rounds : exists im, run methods_image = IGood im /\ lookup_function_address rounds im (str "nosuch") (str "a.sp") = IGood (Some 0).
Proof.
  assert (H : ask (fun im => lookup_function_address rounds im (str "nosuch") (str "a.sp")) (run methods_image) = Some (IGood (Some 0))) by (vm_compute; reflexivity).
  apply ask_some in H as (im & E & H). eauto.
Qed.

Lemma same_round im d s y name file a n : num_syms im d = IGood n -> 0 < n ->
  function_named im y (sc_off s + sc_size s) name (Z.to_nat n) (sc_off s) = IGood (Some a) -> in_file im file a = IGood false ->
  forall rounds addr, symbol_named rounds im d s y name file addr = ILoop.
Proof.
  intros N P F I. induction rounds as [|rounds IH]; intros addr; cbn [symbol_named]; [reflexivity|].
  rewrite N. cbn [ibind]. rewrite F. cbn [ibind]. destruct (n <=? 0) eqn:Q; [lia|]. rewrite I. cbn [ibind]. apply IH.
Qed.
Lemma endless : exists im, bytes symbols_image /\ run symbols_image = IGood im /\
  (exists o, lookup_function im 8 = IGood (Some o) /\ string_at (im_buf im) o (str "print")) /\
  forall rounds, lookup_function_address rounds im (str "print") (str "a.sp") = ILoop.
Proof.
  assert (H : ask (fun im => match im_rtti im, im_debug im with
      | None, Some d => match dg_symbols d with
         | Some (s, u) => Some (num_syms im d, function_named im (sym_layout u) (sc_off s + sc_size s) (str "print") 1 (sc_off s), in_file im (str "a.sp") 8,
                                lookup_function im 8, firstn 6 (skipn 263 (im_buf im)))
         | None => None end
      | _, _ => None end) (run symbols_image) =
    Some (Some (IGood 1, IGood (Some 8), IGood false, IGood (Some 263), str "print" ++ [0]))) by (vm_compute; reflexivity).
  apply ask_some in H as (im & E & H). destruct (im_rtti im) as [q|] eqn:R; [discriminate|]. destruct (im_debug im) as [d|] eqn:D; [|discriminate].
  destruct (dg_symbols d) as [[s u]|] eqn:Sy; [|discriminate]. exists im.
  assert (H' := f_equal (fun o => match o with Some x => x | None => (ILoop, ILoop, ILoop, ILoop, []) end) H). cbv beta iota in H'. clear H.
  apply pair_equal_spec in H' as [H H5]. apply pair_equal_spec in H as [H H4]. apply pair_equal_spec in H as [H H3]. apply pair_equal_spec in H as [H1 H2].
  split; [apply all_bytes_ok; vm_compute; reflexivity|]. split; [exact E|]. split.
  { exists 263. split; [exact H4|]. split; [lia|]. split; [exact H5|]. cbn. repeat (apply Forall_cons; [lia|]). apply Forall_nil. }
  intros rounds. unfold lookup_function_address. rewrite R, D, Sy.
  rewrite (same_round im d s (sym_layout u) (str "print") (str "a.sp") 8 1); [reflexivity|exact H1|lia|exact H2|exact H3].
Qed.

Lemma shared_count : exists im, bytes symbols_image /\ run symbols_image = IGood im /\
  num_functions im 0 = IGood (1, 1) /\ num_functions im 7 = IGood (7, 7).
Proof.
  assert (H : ask (fun im => (num_functions im 0, num_functions im 7)) (run symbols_image) = Some (IGood (1, 1), IGood (7, 7))) by (vm_compute; reflexivity).
  apply ask_some in H as (im & E & H). apply pair_equal_spec in H as [H1 H2]. exists im. split; [apply all_bytes_ok; vm_compute; reflexivity|auto].
Qed.
Lemma no_symbols : exists im, bytes (write_image basic) /\ run (write_image basic) = IGood im /\
  num_functions im 0 = IUndef UBMem /\ lookup_function_address 1 im (str "main") (str "a.sp") = IUndef UBMem /\ lookup_line_address im 1 (str "a.sp") = IUndef UBMem.
Proof.
  assert (H : ask (fun im => (num_functions im 0, lookup_function_address 1 im (str "main") (str "a.sp"), lookup_line_address im 1 (str "a.sp"))) (run (write_image basic)) =
    Some (IUndef UBMem, IUndef UBMem, IUndef UBMem)) by (vm_compute; reflexivity).
  apply ask_some in H as (im & E & H). apply pair_equal_spec in H as [H H3]. apply pair_equal_spec in H as [H1 H2]. exists im.
  split; [apply all_bytes_ok; vm_compute; reflexivity|auto].
Qed.
