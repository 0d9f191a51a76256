(* C17: what holds of an accepted image, and what the host may then ask. *)
From Coq Require Import ZifyBool.
From Coq Require String. Import String.StringSyntax.
From Verif Require Import Base Base_Proofs Rtti_Model Rtti_Spec Rtti_Safe Rt_Model Img_Model Img_Spec Img_Proofs Img_Safe.
Local Open Scope string_scope.
Local Open Scope Z_scope.
Ltac Zify.zify_post_hook ::= Z.div_mod_to_equations.

Ltac hyes H := match type of H with (if ?b then _ else _) = _ => destruct b eqn:?; [|discriminate H] end.

Section Accept.
Variable buf : list Z.
Variable secs : list sect.
Hypothesis B : bytes buf.
Hypothesis LS : Forall (listed buf) secs.

Lemma find_listed name s : find_section buf secs name = IGood (Some s) -> listed buf s.
Proof.
  revert LS. induction secs as [|q qs IH]; intros L H; cbn [find_section] in H; [discriminate|].
  inversion L as [|? ? L1 L2]; subst. igood H same E. destruct same; [congruence|]. exact (IH L2 H).
Qed.
Lemma need_good name e1 e2 s : need_section buf secs name e1 e2 = IGood s ->
  listed buf s /\ inside buf (sc_off s) (sc_size s) /\ sc_off s < blen buf.
Proof.
  unfold need_section. intros H. igood H r E. destruct r as [q|]; [|discriminate]. hyes H. injection H as <-.
  apply find_listed in E. split; [exact E|]. apply valid_inside; auto.
Qed.

Lemma names_good nm : names buf secs = IGood nm ->
  inside buf (sc_off nm) (sc_size nm) /\ (0 < sc_size nm -> byte_at buf (sc_off nm + sc_size nm - 1) = 0).
Proof.
  unfold names. intros H. igood H s E. apply need_good in E as (L & I & _). destruct (sc_size s =? 0) eqn:Q.
  - injection H as <-. split; [exact I|]. lia.
  - igood H b E. apply rd1_good in E as (-> & _). hif H. injection H as <-. split; [exact I|]. lia.
Qed.

Lemma in_names nm n : inside buf (sc_off nm) (sc_size nm) -> (0 < sc_size nm -> byte_at buf (sc_off nm + sc_size nm - 1) = 0) ->
  0 <= n < sc_size nm -> name_in buf nm (sc_off nm + n).
Proof.
  intros (I1 & I2 & I3) Z0 N. destruct (zero_string buf (Z.to_nat (sc_size nm - 1 - n)) (sc_off nm + n)) as (t & T & L).
  - lia.
  - lia.
  - rewrite Z2Nat.id by lia. replace (sc_off nm + n + (sc_size nm - 1 - n)) with (sc_off nm + sc_size nm - 1) by lia. apply Z0. lia.
  - exists t. split; [exact T|]. lia.
Qed.

Lemma data_good b : validate_data buf secs = IGood b -> inside buf (bl_off b) (bl_size b).
Proof.
  unfold validate_data. intros H. igood H s E. apply need_good in E as (L & (I1 & I2 & I3) & _). igood H d E. apply rd4_good in E as (-> & _).
  hif H. igood H z E. apply rd4_good in E as (-> & _). hif H. injection H as <-. cbn.
  pose proof (word_range buf (sc_off s + 8) B). pose proof (word_range buf (sc_off s) B). unfold is_u32, inside in *. lia.
Qed.
Lemma code_good b v f : validate_code buf secs = IGood (b, v, f) -> inside buf (bl_off b) (bl_size b).
Proof.
  unfold validate_code. intros H. igood H s E. apply need_good in E as (L & (I1 & I2 & I3) & _).
  igood H ve E. hif H. hif H. igood H ce E1. hif H. igood H fl E2. hif H. igood H co E3. apply rd4_good in E3 as (-> & _). hif H.
  igood H cs E3. apply rd4_good in E3 as (-> & _). hif H. igood H fe E4. hif H. hif H. injection H as <- <- <-. cbn.
  pose proof (word_range buf (sc_off s + 12) B). pose proof (word_range buf (sc_off s) B). unfold is_u32, inside in *. lia.
Qed.

Variable nm : sect.
Hypothesis NI : inside buf (sc_off nm) (sc_size nm).
Hypothesis NZ : 0 < sc_size nm -> byte_at buf (sc_off nm + sc_size nm - 1) = 0.

Lemma list_good name w at_ e1 e2 t : 0 <= at_ -> at_ + 4 <= w -> validate_list buf secs nm name w at_ e1 e2 = IGood t ->
  0 <= tb_count t /\ forall i, 0 <= i < tb_count t -> inside buf (tb_off t + w * i) w /\
    name_in buf nm (sc_off nm + word_at buf (tb_off t + w * i + at_)).
Proof.
  intros A W H. unfold validate_list in H. igood H r E. destruct r as [s|].
  2:{ injection H as <-. cbn. split; [lia|]. intros; lia. }
  apply find_listed in E. hif H. hif H. cbv zeta in H. igood H u F. injection H as <-. cbn. destruct u.
  destruct (valid_inside buf B s E) as [(I1 & I2 & I3) _]; [destruct (valid_section buf s); easy|].
  split; [apply Z.div_pos; lia|]. intros i I. assert (w * i + w <= sc_size s) by nia. split; [unfold inside; nia|].
  apply for_rows_good with (j := i) in F; [|lia]. igood F n G. apply rd4_good in G as (-> & _). hif F.
  apply in_names; [exact NI|exact NZ|]. unfold valid_name in *.
  pose proof (word_range buf (sc_off s + w * i + at_) B). unfold is_u32 in *. lia.
Qed.

Lemma check_name_good o e : check_name buf nm o e = IGood tt -> 0 <= o /\ o + 4 <= blen buf /\ name_in buf nm (sc_off nm + word_at buf o).
Proof.
  unfold check_name. intros H. igood H n E. apply rd4_good in E as (-> & X & Y). hyes H. split; [exact X|]. split; [exact Y|].
  apply in_names; [exact NI|exact NZ|]. unfold valid_name in *. pose proof (word_range buf o B). unfold is_u32 in *. lia.
Qed.

Lemma methods_good types code version t : validate_methods buf nm types code version t = IGood tt ->
  forall i, 0 <= i < row_total buf t -> inside buf (row_at buf t i) 16 /\ name_in buf nm (sc_off nm + word_at buf (row_at buf t i)).
Proof.
  intros H i I. unfold validate_methods in H. igood H n E. apply count_good in E as ->.
  apply for_rows_good with (j := i) in H; [|lia]. igood H r E. apply row_good in E as ->. igood H u E. destruct u.
  apply check_name_good in E as (X & Y & Z0). igood H sg E. apply rd4_good in E as (-> & _ & U). split; [|exact Z0]. unfold inside. lia.
Qed.

Lemma rtti_good code version types t : validate_rtti buf secs nm code version = IGood (Some (types, t)) -> inside buf t 12 /\
  forall i, 0 <= i < row_total buf t -> inside buf (row_at buf t i) 16 /\ name_in buf nm (sc_off nm + word_at buf (row_at buf t i)).
Proof.
  intros H. unfold validate_rtti in H. igood H r E. destruct r as [s|]; [|discriminate]. hif H. cbv zeta in H.
  igood H m F. injection H as H1 H2. subst m. unfold validate_rtti_tables in F.
  igood F a F1. igood F b F2. igood F u F3. destruct u.
  igood F b1 G1. igood F b2 G2. igood F b3 G3. igood F b4 G4. igood F b5 G5. igood F b6 G6. igood F b7 G7.
  igood F b8 G8. igood F b9 G9. igood F b10 G10. igood F b11 G11. igood F b12 G12.
  injection F as ->. rewrite H1 in F3. split; [|exact (methods_good _ _ _ _ F3)].
  unfold mandatory in F1. igood F1 q Q. destruct q as [q|]; [|discriminate]. igood F1 ok V. destruct ok; [|discriminate].
  injection F1 as <-. apply find_listed in Q. destruct (rtti_header_good buf B q Q V) as ((I1 & I2 & I3) & S12 & _). unfold inside. lia.
Qed.

Lemma debug_good stop code version memsize rtti d : validate_debug stop buf secs nm code version memsize rtti = IGood (Some d) ->
  (0 <= tb_count (dg_files d) /\ inside buf (tb_off (dg_files d)) (8 * tb_count (dg_files d))) /\
  (0 <= tb_count (dg_lines d) /\ inside buf (tb_off (dg_lines d)) (8 * tb_count (dg_lines d))) /\
  (forall n, 0 <= n < sc_size (dg_names d) -> name_in buf (dg_names d) (sc_off (dg_names d) + n)) /\
  (forall s u, dg_symbols d = Some (s, u) -> inside buf (sc_off s) (sc_size s)).
Proof.
  intros H. unfold validate_debug in H. igood H r E. destruct r as [info|]; [|discriminate]. hif H.
  igood H st Est. igood H dn Edn. igood H fi Ef. igood H nf E1. hif H. igood H li El. igood H nl E2. hif H.
  igood H sy Es. igood H ch Ec. injection H as <-. cbn [dg_files dg_lines dg_names dg_symbols tb_count tb_off].
  apply need_good in Ef as (_ & (F1 & F2 & F3) & _). apply need_good in El as (_ & (L1 & L2 & L3) & _).
  apply rd4_good in E1 as (-> & _). apply rd4_good in E2 as (-> & _).
  pose proof (word_range buf (sc_off info) B). pose proof (word_range buf (sc_off info + 4) B). unfold is_u32 in *.
  split; [unfold inside; lia|]. split; [unfold inside; lia|]. split.
  - destruct st as [s|].
    + apply find_listed in Est. hif Edn.
      destruct (valid_inside buf B s Est) as [I _]; [destruct (valid_section buf s); easy|].
      destruct (sc_size s =? 0) eqn:Q.
      * injection Edn as <-. intros n N. lia.
      * igood Edn b Eb. apply rd1_good in Eb as (-> & _). hif Edn. injection Edn as <-. intros n N.
        apply in_names; [exact I|lia|exact N].
    + injection Edn as <-. intros n N. apply in_names; assumption.
  - intros s u Eq. subst ch. destruct sy as [q|].
    + apply find_listed in Es. hif Ec. igood Ec fv Ev. igood Ec un Eu. injection Ec as -> _.
      apply (valid_inside buf B s Es). destruct (valid_section buf s); easy.
    + igood Ec x Ex. discriminate.
Qed.
End Accept.

Lemma sections_sound stop buf secs im : bytes buf -> Forall (listed buf) secs -> validate_sections stop buf secs = IGood im ->
  im_buf im = buf /\ sound im.
Proof.
  intros B LS H. unfold validate_sections in H. igood H nm En. igood H c Ec. destruct c as [[code version] features].
  igood H data Ed. igood H pu Ep. igood H pv Ev. igood H na Ena. igood H rti Er. igood H ms Em. igood H dg Eg. igood H tg Et.
  injection H as <-. split; [reflexivity|].
  destruct (names_good buf secs B LS nm En) as [NI NZ]. unfold sound, named_list, named_methods. cbn [im_buf im_names im_code im_data im_publics im_pubvars im_natives im_rtti im_debug im_tags].
  split; [exact (code_good buf secs B LS _ _ _ Ec)|]. split; [exact (data_good buf secs B LS _ Ed)|].
  split; [eapply list_good; try eassumption; lia|]. split; [eapply list_good; try eassumption; lia|].
  split; [eapply list_good; try eassumption; lia|]. split; [eapply list_good; try eassumption; lia|].
  split.
  - intros types t ->. eapply rtti_good; eassumption.
  - intros d ->. eapply debug_good; eassumption.
Qed.

Lemma validate_sound inflate fresh stop file im : zlib inflate -> allocator fresh -> bytes file ->
  validate_image inflate fresh stop file = IGood im -> sound im /\ bytes (im_buf im).
Proof.
  intros ZL AL B H. unfold validate_image in H. igood H buf E. igood H secs C.
  destruct (load_good inflate fresh ZL AL file buf B E) as (BB & _).
  destruct (sections_sound stop buf secs im BB (container_good buf secs BB C) H) as [-> X]. split; assumption.
Qed.

(* ---- Questions. ---- *)
Section Ask.
Variable im : image.
Hypothesis SO : sound im.
Hypothesis B : bytes (im_buf im).
Notation buf := (im_buf im).

Lemma list_name_ok t w at_ i : named_list im t w at_ -> 0 <= at_ -> at_ + 4 <= w -> 0 <= i < tb_count t ->
  exists o s, list_name im t w at_ i = IGood o /\ string_at buf o s.
Proof.
  intros [C N] A W I. destruct (N i I) as [(I1 & I2 & I3) (s & St & _)]. unfold list_name.
  destruct (_ <=? i) eqn:Q; [lia|]. rewrite rd4_ok by lia. cbn [ibind]. eauto.
Qed.

Lemma get_native_ok i : 0 <= i < tb_count (im_natives im) -> exists o s, get_native im i = IGood o /\ string_at buf o s.
Proof. intros I. destruct SO as (_ & _ & N & _). apply list_name_ok; [exact N|lia|lia|exact I]. Qed.
Lemma get_public_ok i : 0 <= i < tb_count (im_publics im) -> exists a o s, get_public im i = IGood (a, o) /\ string_at buf o s.
Proof.
  intros I. destruct SO as (_ & _ & _ & N & _). destruct (list_name_ok _ 8 4 i N) as (o & s & E & St); try lia.
  unfold get_public. rewrite E. cbn [ibind]. destruct N as [_ N]. destruct (N i I) as [(I1 & I2 & I3) _].
  rewrite rd4_ok by lia. cbn [ibind]. eauto.
Qed.
Lemma get_pubvar_ok i : 0 <= i < tb_count (im_pubvars im) -> exists a o s, get_pubvar im i = IGood (a, o) /\ string_at buf o s.
Proof.
  intros I. destruct SO as (_ & _ & _ & _ & N & _). destruct (list_name_ok _ 8 4 i N) as (o & s & E & St); try lia.
  unfold get_pubvar. rewrite E. cbn [ibind]. destruct N as [_ N]. destruct (N i I) as [(I1 & I2 & I3) _].
  rewrite rd4_ok by lia. cbn [ibind]. eauto.
Qed.

Lemma find_native_from_ok name : Forall (fun c => c <> 0) name -> forall n i, 0 <= i -> i + Z.of_nat n = tb_count (im_natives im) ->
  exists r, find_native_from im name n i = IGood r /\ match r with
    | Some k => i <= k < tb_count (im_natives im) /\
        (exists o, get_native im k = IGood o /\ string_at buf o name) /\
        (forall j, i <= j < k -> exists o s, get_native im j = IGood o /\ string_at buf o s /\ s <> name)
    | None => forall j, i <= j < tb_count (im_natives im) -> exists o s, get_native im j = IGood o /\ string_at buf o s /\ s <> name
    end.
Proof.
  intros NZ. induction n as [|n IH]; intros i I L; cbn [find_native_from].
  - exists None. split; [reflexivity|]. intros j J. lia.
  - destruct (get_native_ok i ltac:(lia)) as (o & s & E & St). rewrite E. cbn [ibind]. rewrite (cstr_eq_ok buf name s o St NZ). cbn [ibind].
    destruct (list_eq_dec Z.eq_dec s name) as [->|D].
    + exists (Some i). split; [reflexivity|]. split; [lia|]. split; [eauto|]. intros j J. lia.
    + destruct (IH (i + 1) ltac:(lia) ltac:(lia)) as (r & R & X). exists r. split; [exact R|]. destruct r as [k|].
      * destruct X as (X1 & X2 & X3). split; [lia|]. split; [exact X2|]. intros j J.
        destruct (Z.eq_dec i j) as [<-|NE]; [exists o, s; auto|]. apply X3. lia.
      * intros j J. destruct (Z.eq_dec i j) as [<-|NE]; [exists o, s; auto|]. apply X. lia.
Qed.

(* Entry [j] of a list is called [name], or something else. *)
Definition called (t : table) (j : Z) (name : list Z) : Prop := exists o, list_name im t 8 4 j = IGood o /\ string_at buf o name.
Definition not_called (t : table) (j : Z) (name : list Z) : Prop := exists s, called t j s /\ s <> name.
Definition last_so_far (t : table) (name : list Z) (i : Z) (found : option Z) : Prop :=
  match found with
  | Some k => 0 <= k < i /\ called t k name /\ forall j, k < j < i -> not_called t j name
  | None => forall j, 0 <= j < i -> not_called t j name
  end.

Lemma find_last_ok t name : named_list im t 8 4 -> forall n i found, 0 <= i -> i + Z.of_nat n = tb_count t ->
  last_so_far t name i found ->
  exists r, find_last_from im t name n i found = IGood r /\ last_so_far t name (tb_count t) r.
Proof.
  intros N. induction n as [|n IH]; intros i found I L P; cbn [find_last_from].
  - exists found. split; [reflexivity|]. replace (tb_count t) with i by lia. exact P.
  - destruct (list_name_ok t 8 4 i N ltac:(lia) ltac:(lia) ltac:(lia)) as (o & s & E & St).
    rewrite E. cbn [ibind]. rewrite (cstr_string buf o s St). cbn [ibind]. apply IH; [lia|lia|].
    assert (C : called t i s) by (exists o; auto).
    destruct (list_eq_dec Z.eq_dec s name) as [->|D].
    + cbn. split; [lia|]. split; [exact C|]. intros j J. lia.
    + destruct found as [k|]; cbn in *.
      * destruct P as (P1 & P2 & P3). split; [lia|]. split; [exact P2|]. intros j J.
        destruct (Z.eq_dec j i) as [->|NE]; [exists s; auto|]. apply P3. lia.
      * intros j J. destruct (Z.eq_dec j i) as [->|NE]; [exists s; auto|]. apply P. lia.
Qed.

Lemma table_of_files : table_inside buf (im_files im).
Proof.
  unfold im_files, table_inside. destruct (im_debug im) as [d|] eqn:E.
  - destruct SO as (_ & _ & _ & _ & _ & _ & _ & D). destruct (D d E) as (F & _). exact F.
  - cbn. unfold inside. pose proof (blen_nonneg buf). lia.
Qed.
Lemma table_of_lines : table_inside buf (im_lines im).
Proof.
  unfold im_lines, table_inside. destruct (im_debug im) as [d|] eqn:E.
  - destruct SO as (_ & _ & _ & _ & _ & _ & _ & D). destruct (D d E) as (_ & F & _). exact F.
  - cbn. unfold inside. pose proof (blen_nonneg buf). lia.
Qed.

Lemma debug_name_ok d n : im_debug im = Some d -> 0 <= n -> string_or_null im (debug_name im n).
Proof.
  intros E N. unfold debug_name, im_dnames. rewrite E. cbn [ibind]. destruct (_ <=? n) eqn:Q.
  - exists None. split; [reflexivity|exact I].
  - eexists. split; [reflexivity|]. cbn. destruct SO as (_ & _ & _ & _ & _ & _ & _ & D). destruct (D d E) as (_ & _ & F & _).
    destruct (F n ltac:(lia)) as (s & St & _). eauto.
Qed.

Lemma null_ok : string_or_null im (IGood None).
Proof. exists None. split; [reflexivity|exact I]. Qed.

Lemma lookup_file_ok a : string_or_null im (lookup_file im a).
Proof.
  unfold lookup_file. pose proof table_of_files as T. destruct (lookup_index_ok buf (im_files im) a T) as (r & [[E R]|[E ->]]); rewrite E; cbn [ibind].
  - destruct (r =? -1) eqn:Q; [apply null_ok|]. destruct T as (T1 & T2 & _ & T3). rewrite rd4_ok by lia. cbn [ibind].
    destruct (im_debug im) as [d|] eqn:D.
    + apply debug_name_ok with d; [exact D|]. apply (word_range buf _ B).
    + unfold im_files in R. rewrite D in R. cbn in R. lia.
  - apply null_ok.
Qed.
Lemma get_file_name_ok i : 0 <= i -> string_or_null im (get_file_name im i).
Proof.
  intros I0. unfold get_file_name. pose proof table_of_files as (T1 & T2 & _ & T3). destruct (_ <=? i) eqn:Q; [apply null_ok|].
  rewrite rd4_ok by lia. cbn [ibind]. destruct (im_debug im) as [d|] eqn:D.
  - apply debug_name_ok with d; [exact D|]. apply (word_range buf _ B).
  - unfold im_files in Q. rewrite D in Q. cbn in Q. lia.
Qed.
Lemma lookup_line_ok a : exists r, lookup_line im a = IGood r.
Proof.
  unfold lookup_line. pose proof table_of_lines as T. destruct (lookup_index_ok buf (im_lines im) a T) as (r & [[E R]|[E ->]]); rewrite E; cbn [ibind].
  - destruct (r =? -1) eqn:Q; [exists None; reflexivity|]. destruct T as (T1 & T2 & _ & T3). rewrite rd4_ok by lia. cbn [ibind]. eexists; reflexivity.
  - exists None. reflexivity.
Qed.

Lemma method_from_ok t a : named_methods im t -> forall n i, 0 <= i -> i + Z.of_nat n = row_total buf t ->
  0 <= t -> t + 12 <= blen buf ->
  exists r, method_from buf t a n i = IGood r /\ match r with
    | Some o => exists k, i <= k < row_total buf t /\ o = row_at buf t k /\ word_at buf (o + 4) <= a < word_at buf (o + 8) /\
        (forall j, i <= j < k -> ~ word_at buf (row_at buf t j + 4) <= a < word_at buf (row_at buf t j + 8))
    | None => forall j, i <= j < row_total buf t -> ~ word_at buf (row_at buf t j + 4) <= a < word_at buf (row_at buf t j + 8)
    end.
Proof.
  intros [_ N]. induction n as [|n IH]; intros i I0 L T0 T1; cbn [method_from].
  - exists None. split; [reflexivity|]. intros j J. lia.
  - unfold row. rewrite !rd4_ok by lia. cbn [ibind]. fold (row_at buf t i).
    destruct (N i ltac:(lia)) as [(I1 & I2 & I3) _]. rewrite rd4_ok by lia. cbn [ibind].
    destruct (IH (i + 1) ltac:(lia) ltac:(lia) T0 T1) as (r & R & X).
    assert (Y : ~ word_at buf (row_at buf t i + 4) <= a < word_at buf (row_at buf t i + 8) ->
      match r with
      | Some o => exists k, i <= k < row_total buf t /\ o = row_at buf t k /\ word_at buf (o + 4) <= a < word_at buf (o + 8) /\
          (forall j, i <= j < k -> ~ word_at buf (row_at buf t j + 4) <= a < word_at buf (row_at buf t j + 8))
      | None => forall j, i <= j < row_total buf t -> ~ word_at buf (row_at buf t j + 4) <= a < word_at buf (row_at buf t j + 8)
      end).
    { intros NO. destruct r as [o|].
      - destruct X as (k & K & X1 & X2 & X3). exists k. split; [lia|]. split; [exact X1|]. split; [exact X2|].
        intros j J. destruct (Z.eq_dec j i) as [->|NE]; [exact NO|]. apply X3. lia.
      - intros j J. destruct (Z.eq_dec j i) as [->|NE]; [exact NO|]. apply X. lia. }
    destruct (word_at buf (row_at buf t i + 4) <=? a) eqn:Q1.
    + rewrite rd4_ok by lia. cbn [ibind]. destruct (word_at buf (row_at buf t i + 8) >? a) eqn:Q2.
      * exists (Some (row_at buf t i)). split; [reflexivity|]. exists i. split; [lia|]. split; [reflexivity|]. split; [lia|].
        intros j J. lia.
      * exists r. split; [exact R|]. apply Y. lia.
    + exists r. split; [exact R|]. apply Y. lia.
Qed.

Lemma public_at_ok a : forall n i, 0 <= i -> i + Z.of_nat n = tb_count (im_publics im) -> string_or_null im (public_at im a n i).
Proof.
  induction n as [|n IH]; intros i I0 L; cbn [public_at]; [apply null_ok|].
  destruct (get_public_ok i ltac:(lia)) as (x & o & s & E & St). rewrite E. cbn [ibind fst snd].
  destruct (a =? x); [|apply IH; lia]. exists (Some o). split; [reflexivity|eauto].
Qed.

Lemma layout_fits u : let y := sym_layout u in 0 <= ly_start y /\ ly_start y + 4 <= ly_size y /\ 0 <= ly_end y /\ ly_end y + 4 <= ly_size y /\
  0 <= ly_ident y /\ ly_ident y + 1 <= ly_size y /\ 0 <= ly_dims y /\ ly_dims y + 2 <= ly_size y /\ 0 <= ly_name y /\ ly_name y + 4 <= ly_size y /\
  0 <= ly_dim y.
Proof. destruct u; cbn; lia. Qed.

Lemma function_from_ok d u stop a : im_debug im = Some d -> stop <= blen buf -> forall n cursor, 0 <= cursor ->
  string_or_null im (function_from im (sym_layout u) stop a n cursor).
Proof.
  intros D U. destruct (layout_fits u) as (Y1 & Y2 & Y3 & Y4 & Y5 & Y6 & Y7 & Y8 & Y9 & Y10 & Y11).
  set (y := sym_layout u) in *. clearbody y.
  induction n as [|n IH]; intros cursor C; cbn [function_from]; [apply null_ok|].
  destruct (_ >? stop) eqn:Q; [apply null_ok|]. rewrite rd1_ok by lia. cbn [ibind]. rewrite !rd4_ok by lia. cbn [ibind].
  rewrite rd2_ok by lia. destruct (_ && _ && _) eqn:G.
  - cbn [ibind]. apply debug_name_ok with d; [exact D|]. apply (word_range buf _ B).
  - cbn [ibind]. apply IH. pose proof (byte_range buf (cursor + ly_dims y) B). pose proof (byte_range buf (cursor + ly_dims y + 1) B).
    unfold is_byte in *. nia.
Qed.

Lemma symbol_lookup_ok a : info_room im -> string_or_null im (symbol_lookup im a).
Proof.
  intros IR. unfold symbol_lookup. destruct (im_debug im) as [d|] eqn:D; [|apply null_ok].
  destruct (dg_symbols d) as [[s u]|] eqn:Y; [|apply null_ok]. unfold num_syms. specialize (IR d D). rewrite rd4_ok by lia. cbn [ibind].
  destruct SO as (_ & _ & _ & _ & _ & _ & _ & DD). destruct (DD d D) as (_ & _ & _ & F). destruct (F s u Y) as (I1 & I2 & I3).
  apply function_from_ok with d; [exact D|lia|lia].
Qed.

Lemma method_by_offset_ok a : exists r, method_by_offset im a = IGood r /\
  match r with
  | Some o => exists types t k, im_rtti im = Some (types, t) /\ 0 <= k < row_total buf t /\ o = row_at buf t k /\
      word_at buf (o + 4) <= a < word_at buf (o + 8) /\
      forall j, 0 <= j < k -> ~ word_at buf (row_at buf t j + 4) <= a < word_at buf (row_at buf t j + 8)
  | None => forall types t j, im_rtti im = Some (types, t) -> 0 <= j < row_total buf t ->
      ~ word_at buf (row_at buf t j + 4) <= a < word_at buf (row_at buf t j + 8)
  end.
Proof.
  unfold method_by_offset. destruct (im_rtti im) as [[types t]|] eqn:R.
  2:{ exists None. split; [reflexivity|]. discriminate. }
  destruct SO as (_ & _ & _ & _ & _ & _ & M & _). destruct (M types t R) as [(T0 & _ & T1) N].
  unfold row_count. rewrite rd4_ok by lia. cbn [ibind]. fold (row_total buf t).
  assert (0 <= row_total buf t) by (apply (word_range buf _ B)).
  destruct (method_from_ok t a (M types t R) (Z.to_nat (row_total buf t)) 0) as (r & E & X); try lia. exists r. split; [exact E|].
  destruct r as [o|].
  - destruct X as (k & K & X1 & X2 & X3). exists types, t, k. auto.
  - intros types' t' j [= <- <-]. exact (X j).
Qed.

Lemma lookup_function_ok a : info_room im -> string_or_null im (lookup_function im a).
Proof.
  intros IR. unfold lookup_function. destruct (method_by_offset_ok a) as (r & -> & X). cbn [ibind]. destruct r as [o|].
  - destruct X as (types & t & k & R & K & -> & _). destruct SO as (_ & _ & _ & _ & _ & _ & M & _).
    destruct (proj2 (M types t R) k K) as [(I1 & I2 & I3) (s & St & _)]. rewrite rd4_ok by lia. cbn [ibind]. eexists. split; [reflexivity|]. cbn. eauto.
  - destruct (symbol_lookup_ok a IR) as (q & -> & Y). cbn [ibind]. destruct q as [o|].
    + exists (Some o). split; [reflexivity|exact Y].
    + destruct SO as (_ & _ & _ & [N _] & _). apply public_at_ok; lia.
Qed.

(* ---- Breakpoints by line. ---- *)
Lemma skip_lines_ok t f : table_inside buf t -> forall n i, 0 <= i -> i + Z.of_nat n = tb_count t ->
  exists r, skip_lines buf t f n i = IGood r /\ i <= r <= tb_count t /\
    (r < tb_count t -> f (addr_of buf t r) (item_of buf t r) = false) /\
    (forall j, i <= j < r -> f (addr_of buf t j) (item_of buf t j) = true).
Proof.
  intros (T1 & T2 & _ & T3). induction n as [|n IH]; intros i I0 L; cbn [skip_lines].
  - exists i. split; [reflexivity|]. split; [lia|]. split; intros; lia.
  - rewrite !rd4_ok by lia. cbn [ibind]. fold (addr_of buf t i). fold (item_of buf t i). destruct (f _ _) eqn:F.
    + destruct (IH (i + 1) ltac:(lia) ltac:(lia)) as (r & R & X & Y & Z0). exists r. split; [exact R|]. split; [lia|]. split; [exact Y|].
      intros j J. destruct (Z.eq_dec j i) as [->|NE]; [exact F|]. apply Z0. lia.
    + exists i. split; [reflexivity|]. split; [lia|]. split; [auto|]. intros; lia.
Qed.

Lemma line_address_from_ok d line file : im_debug im = Some d -> Forall (fun c => c <> 0) file -> forall n f i,
  0 <= f -> f + Z.of_nat n = tb_count (dg_files d) -> 0 <= i <= tb_count (dg_lines d) ->
  exists r, line_address_from im (dg_files d) (dg_lines d) line file n f i = IGood r /\
    match r with None => True | Some a => exists j, 0 <= j < tb_count (dg_lines d) /\ a = addr_of buf (dg_lines d) j /\ line <= item_of buf (dg_lines d) j end.
Proof.
  intros D NZ. destruct SO as (_ & _ & _ & _ & _ & _ & _ & DD). destruct (DD d D) as ((F1 & F2 & _ & F3) & TL & _).
  pose proof TL as (L1 & L2 & _ & L3).
  induction n as [|n IH]; intros f i F0 L I0; cbn [line_address_from].
  - exists None. auto.
  - rewrite rd4_ok by lia. cbn [ibind].
    destruct (debug_name_ok d (word_at buf (tb_off (dg_files d) + 8 * f + 4)) D) as (o & Eo & St); [apply (word_range buf _ B)|].
    rewrite Eo. cbn [ibind].
    assert (exists same, match o with Some o0 => cstr_eq buf o0 file | None => IGood false end = IGood same) as (same & ->).
    { destruct o as [o|]; [|eauto]. destruct St as (s & St). rewrite (cstr_eq_ok buf file s) by assumption. eauto. }
    cbn [ibind]. destruct same; cbn [negb]; [|apply IH; lia].
    rewrite rd4_ok by lia. cbn [ibind].
    assert (exists top, (if f + 1 <? tb_count (dg_files d) then rd4 buf (tb_off (dg_files d) + 8 * (f + 1)) else IGood (two32 - 1)) = IGood top) as (top & ->).
    { destruct (_ <? _) eqn:Q; [rewrite rd4_ok by lia|]; eauto. }
    cbn [ibind].
    destruct (skip_lines_ok (dg_lines d) (fun a _ => a <? word_at buf (tb_off (dg_files d) + 8 * f)) TL
      (Z.to_nat (tb_count (dg_lines d) - i)) i) as (i1 & -> & R1 & _); [lia|lia|]. cbn [ibind].
    destruct (skip_lines_ok (dg_lines d) (fun a l => (l <? line) && (a <? top)) TL
      (Z.to_nat (tb_count (dg_lines d) - i1)) i1) as (i2 & -> & R2 & _); [lia|lia|]. cbn [ibind].
    destruct (_ <=? i2) eqn:Q; [exists None; auto|]. rewrite !rd4_ok by lia. cbn [ibind]. fold (item_of buf (dg_lines d) i2).
    destruct (line <=? item_of buf (dg_lines d) i2) eqn:Q2; [|apply IH; lia].
    eexists. split; [reflexivity|]. cbn. exists i2. split; [lia|]. split; [reflexivity|lia].
Qed.
End Ask.
