(* C17: validation stays inside the image. *)
From Coq Require Import ZifyBool.
From Coq Require String. Import String.StringSyntax.
From Verif Require Import Base Base_Proofs Rtti_Model Rtti_Spec Rtti_Safe Rt_Model Img_Model Img_Spec Img_Proofs.
Local Open Scope string_scope.
Local Open Scope Z_scope.
Ltac Zify.zify_post_hook ::= Z.div_mod_to_equations.

Lemma nz_check l : forallb (fun c => negb (c =? 0)) l = true -> Forall (fun c => c <> 0) l.
Proof. intros H. apply Forall_forall. intros x I. apply (proj1 (forallb_forall _ _) H) in I. lia. Qed.
Ltac nz := apply nz_check; reflexivity.

Ltac hif H := match type of H with (if ?b then _ else _) = _ => destruct b eqn:?; [discriminate H|] end.

(* ---- The section table. ---- *)
Lemma read_sections_contained buf st dt : forall n i last, 0 <= i -> HDR + SECT * (i + Z.of_nat n) <= blen buf ->
  contained (read_sections buf st dt n i last).
Proof.
  unfold HDR, SECT. induction n as [|n IH]; intros i last I L; cbn [read_sections]; auto with img. unfold HDR, SECT.
  apply contained_bind; [apply rd4_contained; lia|intros a _]. apply contained_if; intros _; auto with img.
  apply contained_bind; [apply rd4_contained; lia|intros b _].
  apply contained_bind; [apply rd4_contained; lia|intros c _].
  apply contained_bind; [apply IH; lia|intros r _]. auto with img.
Qed.

Lemma read_sections_good buf st dt : forall n i last r, read_sections buf st dt n i last = IGood r ->
  last <= snd r /\
  (snd r = last \/ snd r < u32 (dt - st)) /\
  forall s, In s (fst r) -> exists j, i <= j < i + Z.of_nat n /\
    s = mkSect (st + word_at buf (24 + 12 * j)) (entry_off buf j) (entry_size buf j) /\
    word_at buf (24 + 12 * j) <= snd r /\ word_at buf (24 + 12 * j) < u32 (dt - st).
Proof.
  induction n as [|n IH]; intros i last r H; cbn [read_sections] in H; unfold HDR, SECT in H.
  - injection H as <-. cbn [fst snd In]. split; [lia|]. split; [lia|]. intros s [].
  - igood H a E1. destruct (_ <=? a) eqn:Q; [discriminate|]. igood H b E2. igood H c E3. igood H q E4. injection H as <-.
    apply rd4_good in E1 as (-> & _ & _). apply rd4_good in E2 as (-> & _ & _). apply rd4_good in E3 as (-> & _ & _).
    apply IH in E4 as (A & B & C). cbn [fst snd]. split; [destruct (last <? _) eqn:K; lia|].
    split. { destruct (last <? _) eqn:K; lia. }
    intros s [<-|I].
    + exists i. split; [lia|]. split; [reflexivity|]. split; [destruct (last <? _) eqn:K; lia|lia].
    + destruct (C s I) as (j & J & X & Y). exists j. split; [lia|]. auto.
Qed.

Lemma find_nul_contained buf : forall n o, 0 <= o -> (n = 0%nat \/ o + Z.of_nat n <= blen buf) -> contained (find_nul buf n o).
Proof.
  induction n as [|n IH]; intros o O' L; cbn [find_nul]; auto with img.
  apply contained_bind; [apply rd1_contained; lia|intros b _]. apply contained_if; intros _; auto with img. apply IH; lia.
Qed.
Lemma find_nul_true buf : forall n o, find_nul buf n o = IGood true ->
  exists k, 0 <= k < Z.of_nat n /\ byte_at buf (o + k) = 0 /\ 0 <= o /\ o + k < blen buf.
Proof.
  induction n as [|n IH]; intros o H; cbn [find_nul] in H; [discriminate|].
  igood H b E. apply rd1_good in E as (-> & L & U). destruct (_ =? 0) eqn:Q.
  - exists 0. rewrite Z.add_0_r. lia.
  - apply IH in H as (k & K & B & X & Y). exists (k + 1). replace (o + (k + 1)) with (o + 1 + k) by lia. lia.
Qed.

(* A section the container hands out: one of the table's entries, with a proper name. *)
Definition listed (buf : list Z) (s : sect) : Prop :=
  exists i, 0 <= i < byte_at buf 15 /\ s = mkSect (entry_name buf i) (entry_off buf i) (entry_size buf i) /\
            exists t, string_at buf (sc_name s) t.

Lemma container_contained buf : bytes buf -> 24 <= blen buf -> word_at buf 20 <= blen buf -> contained (container buf).
Proof.
  intros B L D. unfold container. pose proof (word_range buf 16 B) as W. unfold is_u32 in W.
  apply contained_bind; [apply rd4_contained; lia|intros st E]. apply rd4_good in E as (-> & _ & _).
  apply contained_if; intros Q; auto with img.
  apply contained_bind; [apply rd1_contained; lia|intros n E]. apply rd1_good in E as (-> & _ & _).
  pose proof (byte_range buf 15 B) as R. unfold is_byte in R. unfold HDR, SECT.
  apply contained_if; intros Q2; auto with img.
  apply contained_bind; [apply rd4_contained; lia|intros d E]. apply rd4_good in E as (-> & _ & _).
  apply contained_bind; [apply read_sections_contained; unfold HDR, SECT; lia|intros r E].
  apply contained_bind; [|intros f _; apply contained_if; intros _; auto with img].
  apply read_sections_good in E as (A & _). apply find_nul_contained; [lia|]. lia.
Qed.

Lemma container_good buf secs : bytes buf -> container buf = IGood secs -> Forall (listed buf) secs.
Proof.
  intros B H. unfold container in H. pose proof (word_range buf 16 B) as W. unfold is_u32 in W.
  igood H st E. apply rd4_good in E as (-> & _ & _). destruct (_ <=? _) eqn:Q; [discriminate|].
  igood H n E. apply rd1_good in E as (-> & _ & _). destruct (_ <? _) eqn:Q2; [discriminate|].
  igood H d E. apply rd4_good in E as (-> & _ & _). igood H r E. igood H f F.
  destruct f; [|discriminate]. injection H as <-. apply find_nul_true in F as (k & K & Z0 & P & U).
  apply read_sections_good in E as (A & _ & C). apply Forall_forall. intros s I.
  destruct (C s I) as (j & J & -> & X & Y). pose proof (word_range buf (24 + 12 * j) B) as V. unfold is_u32 in V.
  exists j. split; [lia|]. split; [reflexivity|]. cbn [sc_name].
  set (a := word_at buf 16 + word_at buf (24 + 12 * j)) in *. set (b := word_at buf 16 + snd r + k).
  destruct (zero_string buf (Z.to_nat (b - a)) a) as (t & T & _).
  - lia.
  - unfold a, b in *. lia.
  - replace (a + Z.of_nat (Z.to_nat (b - a))) with b by (unfold a, b in *; lia). exact Z0.
  - exists t. exact T.
Qed.

Lemma find_section_ok buf name : Forall (fun c => c <> 0) name -> forall secs, Forall (listed buf) secs ->
  exists r, find_section buf secs name = IGood r /\
    match r with Some s => In s secs /\ string_at buf (sc_name s) name | None => forall s, In s secs -> ~ string_at buf (sc_name s) name end.
Proof.
  intros N. induction secs as [|s secs IH]; intros F; cbn [find_section].
  - exists None. split; [reflexivity|]. intros s [].
  - inversion F as [|? ? F1 F2]; subst. destruct F1 as (i & I & E & t & T).
    rewrite (cstr_eq_ok buf name t) by assumption. cbn [ibind]. destruct (list_eq_dec Z.eq_dec t name) as [->|D].
    + exists (Some s). split; [reflexivity|]. split; [left; reflexivity|exact T].
    + destruct (IH F2) as (r & R & X). exists r. split; [exact R|]. destruct r as [q|].
      * destruct X as [X Y]. split; [right; exact X|exact Y].
      * intros q [<-|Q]; [|auto]. intros C. apply D. eapply string_unique; eassumption.
Qed.

Section Inside.
Variable buf : list Z.
Variable secs : list sect.
Hypothesis B : bytes buf.
Hypothesis LS : Forall (listed buf) secs.
Hypothesis ROOM : roomy buf.
Hypothesis L24 : 24 <= blen buf.

Definition has (s : sect) (name : list Z) : Prop := listed buf s /\ string_at buf (sc_name s) name.

Lemma find_contained name : Forall (fun c => c <> 0) name -> contained (find_section buf secs name).
Proof. intros N. destruct (find_section_ok buf name N secs LS) as (r & -> & _). auto with img. Qed.
Lemma find_has name s : Forall (fun c => c <> 0) name -> find_section buf secs name = IGood (Some s) -> has s name.
Proof.
  intros N H. destruct (find_section_ok buf name N secs LS) as (r & R & X).
  assert (r = Some s) as -> by congruence. destruct X as [X Y]. split; [|exact Y].
  exact (proj1 (Forall_forall _ _) LS s X).
Qed.
Lemma find_bind {A} name (k : option sect -> ires A) : Forall (fun c => c <> 0) name ->
  contained (k None) -> (forall s, has s name -> contained (k (Some s))) -> contained (ibind (find_section buf secs name) k).
Proof.
  intros N K1 K2. apply contained_bind; [apply find_contained; exact N|]. intros [s|] E; [|exact K1].
  apply K2. exact (find_has name s N E).
Qed.

Lemma listed_range s : listed buf s -> 0 <= sc_off s /\ 0 <= sc_size s.
Proof.
  intros (i & I & -> & _). cbn. unfold entry_off, entry_size.
  pose proof (word_range buf (24 + 12 * i + 4) B). pose proof (word_range buf (24 + 12 * i + 8) B). unfold is_u32 in *. lia.
Qed.
Lemma valid_inside s : listed buf s -> valid_section buf s = true -> inside buf (sc_off s) (sc_size s) /\ sc_off s < blen buf.
Proof.
  intros L V. apply listed_range in L as [L1 L2]. unfold valid_section in V. unfold inside.
  destruct (_ <=? _) eqn:Q; [discriminate|]. lia.
Qed.
Lemma header_room s name w : has s name -> In (name, w) headers -> sc_off s + w <= blen buf.
Proof.
  intros ((i & I & -> & _) & St) N. cbn [sc_name sc_off] in *. exact (proj1 (ROOM i name w I St) N).
Qed.

Lemma need_bind {A} name e1 e2 (k : sect -> ires A) : Forall (fun c => c <> 0) name ->
  (forall s, has s name -> valid_section buf s = true -> contained (k s)) ->
  contained (ibind (need_section buf secs name e1 e2) k).
Proof.
  intros N K. unfold need_section. apply contained_bind.
  - apply find_bind; auto with img. intros s H. apply contained_if; auto with img.
  - intros s H. igood H r E. destruct r as [q|]; [|discriminate]. destruct (valid_section buf q) eqn:V; [|discriminate].
    injection H as <-. apply K; [exact (find_has name q N E)|exact V].
Qed.

Lemma names_contained : contained (names buf secs).
Proof.
  unfold names. apply need_bind; [nz|]. intros s [L H] V. apply contained_if; intros Q; auto with img.
  destruct (valid_inside s L V) as [(I1 & I2 & I3) I4]. apply contained_bind; [apply rd1_contained; lia|].
  intros b _. apply contained_if; intros; auto with img.
Qed.

Lemma data_contained : contained (validate_data buf secs).
Proof.
  unfold validate_data. apply need_bind; [nz|]. intros s H V. destruct (valid_inside s (proj1 H) V) as [(I1 & I2 & I3) I4].
  pose proof (header_room s _ 12 H ltac:(cbn; auto)) as R.
  apply contained_bind; [apply rd4_contained; lia|intros d _]. apply contained_if; intros _; auto with img.
  apply contained_bind; [apply rd4_contained; lia|intros z _]. apply contained_if; intros _; auto with img.
Qed.

Lemma code_contained : contained (validate_code buf secs).
Proof.
  unfold validate_code. apply need_bind; [nz|]. intros s H V. destruct (valid_inside s (proj1 H) V) as [(I1 & I2 & I3) I4].
  pose proof (header_room s _ 20 H ltac:(cbn; auto)) as R.
  repeat first
    [ apply contained_if; intros _; auto with img; []
    | apply contained_bind; [first [apply rd4_contained; lia|apply rd2_contained; lia|apply rd1_contained; lia]|intros ? _] ].
  apply contained_bind; [|intros f _].
  - apply contained_if; intros _; auto with img. apply rd4_contained; lia.
  - apply contained_if; intros _; auto with img. apply contained_if; intros _; auto with img.
Qed.

Lemma for_rows_contained f : forall n i, (forall j, i <= j < i + Z.of_nat n -> contained (f j)) -> contained (for_rows n i f).
Proof.
  induction n as [|n IH]; intros i H; cbn [for_rows]; auto with img.
  apply contained_bind; [apply H; lia|intros _ _]. apply IH. intros j J. apply H. lia.
Qed.
Lemma for_rows_good f : forall n i, for_rows n i f = IGood tt -> forall j, i <= j < i + Z.of_nat n -> f j = IGood tt.
Proof.
  induction n as [|n IH]; intros i H j J; cbn [for_rows] in H; [lia|]. igood H u E. destruct u.
  destruct (Z.eq_dec i j) as [->|N]; [exact E|]. apply (IH (i + 1) H). lia.
Qed.

Lemma list_contained nm name w at_ e1 e2 : Forall (fun c => c <> 0) name -> 0 <= at_ -> at_ + 4 <= w ->
  contained (validate_list buf secs nm name w at_ e1 e2).
Proof.
  intros N A W. unfold validate_list. apply find_bind; auto with img. intros s [L H].
  apply contained_if; intros V; auto with img. destruct (valid_inside s L) as [(I1 & I2 & I3) I4]; [destruct (valid_section buf s); easy|].
  apply contained_if; intros M; auto with img. cbv zeta.
  apply contained_bind; [|intros; auto with img]. apply for_rows_contained. intros j J.
  assert (w * j + w <= sc_size s) by nia.
  apply contained_bind; [apply rd4_contained; nia|intros ? _]. apply contained_if; intros; auto with img.
Qed.

(* ---- Tables with an RTTI header. ---- *)
Definition fits (t w : Z) : Prop := 0 <= t /\ t + 12 <= blen buf /\
  forall i, 0 <= i < row_total buf t -> 0 <= row_at buf t i /\ row_at buf t i + w <= blen buf.

Lemma rtti_header_contained s : listed buf s -> contained (valid_rtti_header buf s).
Proof.
  intros L. unfold valid_rtti_header. destruct (valid_section buf s) eqn:V; cbn [negb]; auto with img.
  destruct (valid_inside s L V) as [(I1 & I2 & I3) I4]. apply contained_if; intros Q; auto with img.
  apply contained_bind; [apply rd4_contained; lia|intros h _]. apply contained_if; intros _; auto with img.
  apply contained_bind; [apply rd4_contained; lia|intros r _]. apply contained_bind; [apply rd4_contained; lia|intros c _].
  apply contained_if; intros _; auto with img. cbv zeta. apply contained_if; intros _; auto with img.
Qed.
Lemma rtti_header_good s : listed buf s -> valid_rtti_header buf s = IGood true ->
  inside buf (sc_off s) (sc_size s) /\ 12 <= sc_size s /\
  sc_size s = word_at buf (sc_off s) + word_at buf (sc_off s + 4) * word_at buf (sc_off s + 8).
Proof.
  intros L H. unfold valid_rtti_header in H. destruct (valid_section buf s) eqn:V; cbn [negb] in H; [|discriminate].
  destruct (valid_inside s L V) as [I I4]. split; [exact I|]. destruct (_ <? 12) eqn:Q; [discriminate|]. split; [lia|].
  igood H h E. apply rd4_good in E as (-> & _ & _). destruct (sc_size s <? word_at buf (sc_off s)) eqn:Q2; [discriminate|].
  igood H r E. apply rd4_good in E as (-> & _ & _). igood H c E. apply rd4_good in E as (-> & _ & _).
  pose proof (word_range buf (sc_off s) B) as W1. pose proof (word_range buf (sc_off s + 4) B) as W2.
  pose proof (word_range buf (sc_off s + 8) B) as W3. unfold is_u32 in *.
  set (h := word_at buf (sc_off s)) in *. set (r := word_at buf (sc_off s + 4)) in *. set (c := word_at buf (sc_off s + 8)) in *.
  unfold u32_mul_safe, u32_add_safe, u32 in H. clearbody h r c. clear - H W1 W2 W3.
  rewrite !(Z.mod_small r), !(Z.mod_small c) in H by lia.
  destruct (r * c <? two32) eqn:M; cbn [negb] in H; [|discriminate].
  assert (0 <= r * c) by nia. rewrite !(Z.mod_small (r * c)) in H by lia. rewrite (Z.mod_small h) in H by lia.
  destruct (r * c + h <? two32) eqn:M2; cbn [negb] in H; [|discriminate]. rewrite (Z.mod_small (h + r * c)) in H by lia.
  injection H as H. lia.
Qed.
Lemma fits_rows s name w : has s name -> In (name, w) rows -> valid_rtti_header buf s = IGood true -> fits (sc_off s) w.
Proof.
  intros H N V. destruct (rtti_header_good s (proj1 H) V) as ((I1 & I2 & I3) & S12 & E).
  split; [exact I1|]. split; [lia|]. intros i R. unfold row_at, row_total in *.
  pose proof (word_range buf (sc_off s) B) as W1. pose proof (word_range buf (sc_off s + 4) B) as W2. unfold is_u32 in *.
  assert (X : w <= word_at buf (sc_off s + 4) \/ sc_off s + sc_size s + w <= blen buf).
  { destruct H as ((k & K & -> & _) & St). cbn [sc_name sc_off sc_size] in *. exact (proj2 (ROOM k name w K St) N). }
  set (h := word_at buf (sc_off s)) in *. set (r := word_at buf (sc_off s + 4)) in *. set (c := word_at buf (sc_off s + 8)) in *.
  clearbody h r c. split; [nia|]. assert (r * i + r <= r * c) by nia. nia.
Qed.

Lemma row_contained t w i : fits t w -> contained (row buf t i).
Proof.
  intros (T & U & _). unfold row. apply contained_bind; [apply rd4_contained; lia|intros ? _].
  apply contained_bind; [apply rd4_contained; lia|intros ? _]. auto with img.
Qed.
Lemma row_good t i r : row buf t i = IGood r -> r = row_at buf t i.
Proof.
  unfold row. intros H. igood H a E1. igood H b E2. apply rd4_good in E1 as (-> & _). apply rd4_good in E2 as (-> & _).
  unfold row_at. congruence.
Qed.
Lemma count_contained t w : fits t w -> contained (row_count buf t).
Proof. intros (T & U & _). apply rd4_contained; lia. Qed.
Lemma count_good t n : row_count buf t = IGood n -> n = row_total buf t.
Proof. intros H. apply rd4_good in H as (-> & _). reflexivity. Qed.

(* Loops over the rows of a table. *)
Lemma rows_contained t w (f : Z -> Z -> ires unit) : fits t w ->
  (forall i, 0 <= i < row_total buf t -> contained (f (row_total buf t) i)) ->
  contained (n <-- row_count buf t;; for_rows (Z.to_nat n) 0 (f n)).
Proof.
  intros F H. apply contained_bind; [apply count_contained with w; exact F|]. intros n E. apply count_good in E as ->.
  apply for_rows_contained. intros j J. apply H. lia.
Qed.
Lemma at_row t w (k : Z -> ires unit) i : fits t w -> contained (k (row_at buf t i)) -> contained (ibind (row buf t i) k).
Proof.
  intros F H. apply contained_bind; [apply row_contained with w; exact F|]. intros r E. apply row_good in E as ->. exact H.
Qed.
Lemma check_name_contained nm o e : 0 <= o -> o + 4 <= blen buf -> contained (check_name buf nm o e).
Proof. intros L U. unfold check_name. apply contained_bind; [apply rd4_contained; lia|intros ? _]. apply contained_if; intros; auto with img. Qed.
Lemma type_ok_contained r e : answers r \/ r = Bad ShiftTooFar -> contained (type_ok r e).
Proof.
  intros [(a & o & ->) | ->]; unfold type_ok; cbn [from_rtti ibind]; [|apply contained_arith].
  apply contained_if; intros; auto with img.
Qed.

Ltac rd := first [apply rd4_contained; lia | apply rd2_contained; lia | apply rd1_contained; lia].
Ltac cif := apply contained_if; [intros _; auto with img | intros ?; auto with img].

Lemma enums_contained nm t : fits t 16 -> contained (validate_enums buf nm t).
Proof.
  intros F. unfold validate_enums. apply (rows_contained t 16 (fun _ i => r <-- row buf t i;; check_name buf nm r "invalid enum name")); [exact F|].
  intros i I. apply at_row with 16; [exact F|]. destruct F as (_ & _ & F). specialize (F i I). apply check_name_contained; lia.
Qed.

Lemma word_nonneg o : 0 <= word_at buf o.
Proof. apply (word_range buf o B). Qed.

Lemma es_field_contained nm types es fields j : fits fields 12 -> 0 <= es -> es + 12 <= blen buf -> 0 <= j ->
  contained (validate_es_field buf nm types es fields j).
Proof.
  intros F E0 E1 J. unfold validate_es_field. apply contained_bind; [apply count_contained with 12; exact F|].
  intros n E. apply count_good in E as ->. apply contained_if; [auto with img|intros Q].
  apply at_row with 12; [exact F|]. destruct F as (_ & _ & F). specialize (F j ltac:(lia)).
  apply contained_bind; [apply check_name_contained; lia|intros _ _].
  apply contained_bind; [rd|intros ? _]. apply contained_bind; [rd|intros ? _]. cif.
  apply contained_bind; [rd|intros ? _]. apply type_ok_contained. left. apply validateType_answers.
Qed.

Lemma enumstructs_contained nm types t fields : fits t 12 -> (forall f, fields = Some f -> fits f 12) ->
  contained (validate_enumstructs buf nm types t fields).
Proof.
  intros F FF. unfold validate_enumstructs. destruct fields as [fields|]; auto with img. specialize (FF _ eq_refl).
  apply (rows_contained t 12 (fun n i =>
      r <-- row buf t i;;
      _ <-- check_name buf nm r "invalid enum struct name";;
      stopat <-- (if i =? n - 1 then row_count buf fields else r' <-- row buf t (i + 1);; rd4 buf (r' + 4));;
      first <-- rd4 buf (r + 4);;
      refuse (stopat <=? first) as "invalid enum struct fields boundary";;
      for_rows (Z.to_nat (stopat - first)) first (validate_es_field buf nm types r fields))); [exact F|].
  intros i I. apply at_row with 12; [exact F|]. pose proof F as (_ & _ & G). pose proof (G i I).
  apply contained_bind; [apply check_name_contained; lia|intros _ _]. apply contained_bind.
  { apply contained_if; intros Q; [apply count_contained with 12; exact FF|].
    apply contained_bind; [apply row_contained with 12; exact F|]. intros r' E. apply row_good in E as ->.
    pose proof (G (i + 1) ltac:(lia)). rd. }
  intros stopat _. apply contained_bind; [rd|]. intros first E. apply rd4_good in E as (-> & _). cif.
  apply for_rows_contained. intros j J. apply es_field_contained; [exact FF|lia|lia|].
  pose proof (word_nonneg (row_at buf t i + 4)). lia.
Qed.

Lemma field_contained nm types fields j : fits fields 10 -> 0 <= j -> contained (validate_field buf nm types fields j).
Proof.
  intros F J. unfold validate_field. apply contained_bind; [apply count_contained with 10; exact F|].
  intros n E. apply count_good in E as ->. apply contained_if; [auto with img|intros Q].
  apply at_row with 10; [exact F|]. destruct F as (_ & _ & F). specialize (F j ltac:(lia)).
  apply contained_bind; [apply check_name_contained; lia|intros _ _].
  apply contained_bind; [rd|intros ? _]. apply type_ok_contained. left. apply validateType_answers.
Qed.

Lemma classdefs_contained nm types t fields : fits t 28 -> (forall f, fields = Some f -> fits f 10) ->
  contained (validate_classdefs buf nm types t fields).
Proof.
  intros F FF. unfold validate_classdefs. destruct fields as [fields|]; auto with img. specialize (FF _ eq_refl).
  apply (rows_contained t 28 (fun n i =>
      r <-- row buf t i;;
      _ <-- check_name buf nm (r + 4) "invalid classdef name";;
      stopat <-- (if i =? n - 1 then row_count buf fields else r' <-- row buf t (i + 1);; rd4 buf (r' + 8));;
      first <-- rd4 buf (r + 8);;
      refuse (stopat <=? first) as "invalid classdef fields boundary";;
      for_rows (Z.to_nat (stopat - first)) first (validate_field buf nm types fields))); [exact F|].
  intros i I. apply at_row with 28; [exact F|]. pose proof F as (_ & _ & G). pose proof (G i I).
  apply contained_bind; [apply check_name_contained; lia|intros _ _]. apply contained_bind.
  { apply contained_if; intros Q; [apply count_contained with 10; exact FF|].
    apply contained_bind; [apply row_contained with 28; exact F|]. intros r' E. apply row_good in E as ->.
    pose proof (G (i + 1) ltac:(lia)). rd. }
  intros stopat _. apply contained_bind; [rd|]. intros first E. apply rd4_good in E as (-> & _). cif.
  apply for_rows_contained. intros j J. apply field_contained; [exact FF|].
  pose proof (word_nonneg (row_at buf t i + 8)). lia.
Qed.

Lemma methods_contained nm types code version t : fits t 16 -> (20 <= word_at buf (t + 4) -> fits t 20) ->
  contained (validate_methods buf nm types code version t).
Proof.
  intros F F20. unfold validate_methods.
  match goal with |- contained (n <-- _;; for_rows _ _ ?g) => apply (rows_contained t 16 (fun _ => g)); [exact F|] end.
  intros i I. apply at_row with 16; [exact F|]. pose proof F as (T0 & T1 & G). pose proof (G i I).
  apply contained_bind; [apply check_name_contained; lia|intros _ _].
  apply contained_bind; [rd|]. intros sg E. apply rd4_good in E as (-> & _).
  apply contained_bind; [apply type_ok_contained; left; apply validateFunction_answers; apply word_nonneg|intros _ _].
  apply contained_bind; [rd|intros ? _]. apply contained_bind; [rd|intros ? _]. cif. cif. cif.
  apply contained_bind; [rd|]. intros rs E. apply rd4_good in E as (-> & _).
  apply contained_if; intros Q; [|cif]. cif. destruct (F20 ltac:(lia)) as (_ & _ & G20). pose proof (G20 i I).
  apply contained_bind; [rd|]. intros lo E. apply rd4_good in E as (-> & _). apply type_ok_contained.
  left. apply validateLocalSlots_answers. apply word_nonneg.
Qed.

Lemma rtti_natives_contained nm types t : fits t 8 -> contained (validate_rtti_natives buf nm types t).
Proof.
  intros F. unfold validate_rtti_natives.
  match goal with |- contained (n <-- _;; for_rows _ _ ?g) => apply (rows_contained t 8 (fun _ => g)); [exact F|] end.
  intros i I. apply at_row with 8; [exact F|]. pose proof F as (T0 & T1 & G). pose proof (G i I).
  apply contained_bind; [apply check_name_contained; lia|intros _ _].
  apply contained_bind; [rd|]. intros sg E. apply rd4_good in E as (-> & _).
  apply type_ok_contained; left; apply validateFunction_answers; apply word_nonneg.
Qed.

Lemma typesets_contained nm types t : fits t 8 -> contained (validate_typesets buf nm types t).
Proof.
  intros F. unfold validate_typesets.
  match goal with |- contained (n <-- _;; for_rows _ _ ?g) => apply (rows_contained t 8 (fun _ => g)); [exact F|] end.
  intros i I. apply at_row with 8; [exact F|]. pose proof F as (T0 & T1 & G). pose proof (G i I).
  apply contained_bind; [apply check_name_contained; lia|intros _ _].
  apply contained_bind; [rd|]. intros sg E. apply rd4_good in E as (-> & _).
  apply type_ok_contained; apply validateTypeset_answers; apply word_nonneg.
Qed.

Lemma mandatory_bind {A} name (k : Z -> ires A) : Forall (fun c => c <> 0) name ->
  (forall s, has s name -> valid_rtti_header buf s = IGood true -> contained (k (sc_off s))) ->
  contained (ibind (mandatory buf secs name) k).
Proof.
  intros N K. apply contained_bind.
  - apply find_bind; auto with img. intros s [L H]. apply contained_bind; [apply rtti_header_contained; exact L|].
    intros [|] _; auto with img.
  - intros t H. unfold mandatory in H. igood H r E. destruct r as [s|]; [|discriminate]. igood H ok V.
    destruct ok; [|discriminate]. injection H as <-. apply K; [exact (find_has name s N E)|exact V].
Qed.
Lemma optional_bind {A} name (k : option Z -> ires A) : Forall (fun c => c <> 0) name ->
  contained (k None) ->
  (forall s, has s name -> valid_rtti_header buf s = IGood true -> contained (k (Some (sc_off s)))) ->
  contained (ibind (optional buf secs name) k).
Proof.
  intros N K1 K. apply contained_bind.
  - apply find_bind; auto with img. intros s [L H]. apply contained_bind; [apply rtti_header_contained; exact L|].
    intros [|] _; auto with img.
  - intros t H. unfold optional in H. igood H r E. destruct r as [s|]; [|injection H as <-; exact K1]. igood H ok V.
    destruct ok; [|discriminate]. injection H as <-. apply K; [exact (find_has name s N E)|exact V].
Qed.
(* ... with what is known about the table in one statement. *)
Lemma optional_fits {A} name w (k : option Z -> ires A) : Forall (fun c => c <> 0) name -> In (name, w) rows ->
  (forall t, (forall x, t = Some x -> fits x w) -> contained (k t)) -> contained (ibind (optional buf secs name) k).
Proof.
  intros N I K. apply optional_bind; [exact N|apply K; discriminate|]. intros s H V. apply K. intros x [= <-].
  exact (fits_rows s name w H I V).
Qed.

Lemma when_contained t w f : (forall x, t = Some x -> fits x w) -> (forall x, fits x w -> contained (f x)) -> contained (when_there t f).
Proof. intros F H. destruct t as [x|]; cbn; auto with img. Qed.

Lemma rtti_tables_contained nm types code version : contained (validate_rtti_tables buf secs nm types code version).
Proof.
  unfold validate_rtti_tables.
  apply mandatory_bind; [nz|]. intros m Hm Vm. pose proof (fits_rows m _ 16 Hm ltac:(cbn; auto) Vm) as Fm.
  apply mandatory_bind; [nz|]. intros na Hn Vn. pose proof (fits_rows na _ 8 Hn ltac:(cbn; auto) Vn) as Fn.
  apply contained_bind; [apply methods_contained; [exact Fm|]|intros _ _].
  { intros R20. destruct (rtti_header_good m (proj1 Hm) Vm) as ((I1 & I2 & I3) & S12 & E).
    destruct Fm as (X1 & X2 & X3). split; [exact X1|]. split; [exact X2|]. intros i I. destruct (X3 i I) as [Y _].
    split; [exact Y|]. unfold row_at, row_total in *. pose proof (word_nonneg (sc_off m)).
    set (r := word_at buf (sc_off m + 4)) in *. set (c := word_at buf (sc_off m + 8)) in *. assert (r * i + r <= r * c) by nia. lia. }
  apply contained_bind; [apply rtti_natives_contained; exact Fn|intros _ _].
  apply (optional_fits _ 28); [nz|cbn; auto 10|]. intros cd Fcd.
  apply (optional_fits _ 16); [nz|cbn; auto 10|]. intros en Fen.
  apply (optional_fits _ 12); [nz|cbn; auto 10|]. intros es Fes.
  apply (optional_fits _ 12); [nz|cbn; auto 10|]. intros ef Fef.
  apply (optional_fits _ 10); [nz|cbn; auto 10|]. intros fd Ffd.
  apply optional_bind; [nz| |].
  all: try intros td _ _.
  all: apply (optional_fits _ 8); [nz|cbn; auto 10|]; intros ts Fts.
  all: apply contained_bind; [apply when_contained with 16; [exact Fen|intros; apply enums_contained; assumption]|intros _ _].
  all: apply contained_bind; [apply when_contained with 12; [exact Fes|intros; apply enumstructs_contained; assumption]|intros _ _].
  all: apply contained_bind; [apply when_contained with 28; [exact Fcd|intros; apply classdefs_contained; assumption]|intros _ _].
  all: apply contained_bind; [apply when_contained with 8; [exact Fts|intros; apply typesets_contained; assumption]|intros _ _].
  all: auto with img.
Qed.

Lemma rtti_contained nm code version : contained (validate_rtti buf secs nm code version).
Proof.
  unfold validate_rtti. apply find_bind; [nz|auto with img|]. intros s H. cif. cbv zeta.
  apply contained_bind; [apply rtti_tables_contained|intros; auto with img].
Qed.

Lemma dbg_table_contained name e : Forall (fun c => c <> 0) name -> forall (A : Type) (k : option sect -> ires A),
  (forall t, contained (k t)) ->
  contained (g <-- find_section buf secs name;;
    _ <-- match g with None => IGood tt | Some g => ok <-- valid_rtti_header buf g;; refuse (negb ok) as e;; IGood tt end;; k g).
Proof.
  intros N A k K. apply find_bind; [exact N|cbn; apply K|]. intros s [L H]. apply contained_bind; [|intros; apply K].
  apply contained_bind; [apply rtti_header_contained; exact L|]. intros ok _. cif.
Qed.

Lemma debug_tables_contained nm code version memsize rtti :
  contained (validate_debug_tables false buf secs nm code version memsize rtti).
Proof.
  unfold validate_debug_tables. apply dbg_table_contained; [nz|]. intros _. apply dbg_table_contained; [nz|]. intros _.
  apply find_bind; [nz|auto with img|]. intros s [L H]. apply contained_bind; [apply rtti_header_contained; exact L|].
  intros ok _. cif.
Qed.

Lemma debug_contained nm code version memsize rtti : contained (validate_debug false buf secs nm code version memsize rtti).
Proof.
  unfold validate_debug. apply find_bind; [nz|auto with img|]. intros info Hi.
  apply contained_if; intros V; [auto with img|].
  destruct (valid_inside info (proj1 Hi)) as [(I1 & I2 & I3) I4]; [destruct (valid_section buf info); easy|].
  pose proof (header_room info _ 12 Hi ltac:(cbn; auto)) as R.
  apply find_bind; [nz| |].
  all: try intros st Hst.
  2: apply contained_bind; [cif; apply contained_if; intros Q; [auto with img|];
       destruct (valid_inside st (proj1 Hst)) as [(J1 & J2 & J3) J4]; [destruct (valid_section buf st); easy|];
       apply contained_bind; [rd|intros ? _; cif]|intros dn _].
  1: apply contained_bind; [auto with img|intros dn _].
  all: apply need_bind; [nz|]; intros fi Hf Vf.
  all: apply contained_bind; [rd|intros nf _]; cif.
  all: apply need_bind; [nz|]; intros li Hl Vl.
  all: apply contained_bind; [rd|intros nl _]; cif.
  all: apply find_bind; [nz| |].
  all: try (intros sy Hs).
  all: apply contained_bind; [|intros; auto with img].
  1,3: apply contained_bind; [apply debug_tables_contained|intros; auto with img].
  all: cif; apply contained_bind; [rd|intros fv _]; apply contained_bind; [|intros; auto with img].
  all: apply contained_if; intros _; [|auto with img].
  all: apply find_bind; [nz|auto with img|intros; auto with img].
Qed.

Lemma sections_contained : contained (validate_sections false buf secs).
Proof.
  unfold validate_sections. apply contained_bind; [apply names_contained|intros nm _].
  apply contained_bind; [apply code_contained|]. intros [[code version] features] _.
  apply contained_bind; [apply data_contained|intros data _].
  apply contained_bind; [apply list_contained; [nz|lia|lia]|intros pu _].
  apply contained_bind; [apply list_contained; [nz|lia|lia]|intros pv _].
  apply contained_bind; [apply list_contained; [nz|lia|lia]|intros na _].
  apply contained_bind; [apply rtti_contained|intros rt _].
  apply contained_bind; [auto with img|intros mem _].
  apply contained_bind; [apply debug_contained|intros dg _].
  apply contained_bind; [apply list_contained; [nz|lia|lia]|intros tg _]. auto with img.
Qed.
End Inside.

(* ---- Loading. ---- *)
Section Load.
Variable inflate : list Z -> Z -> zres.
Variable fresh : Z -> list Z.
Hypothesis ZL : zlib inflate.
Hypothesis AL : allocator fresh.

Lemma load_contained file : bytes file -> honest_offsets file -> contained (load inflate fresh file).
Proof.
  intros B [H1 H2]. unfold load, HDR. apply contained_if; intros L; [auto with img|].
  apply contained_bind; [apply rd4_contained; lia|intros m _]. apply contained_if; intros _; [auto with img|].
  apply contained_bind; [apply rd2_contained; lia|intros v _]. apply contained_if; intros _; [auto with img|].
  apply contained_bind; [apply rd1_contained; lia|]. intros c E. apply rd1_good in E as (-> & _).
  apply contained_if; intros C; [|apply contained_if; intros; auto with img].
  specialize (H1 ltac:(lia)). unfold decompress.
  apply contained_bind; [apply rd4_contained; lia|]. intros ds E. apply rd4_good in E as (-> & _).
  apply contained_bind; [apply rd4_contained; lia|]. intros im E. apply rd4_good in E as (-> & _).
  apply contained_bind; [apply rd4_contained; lia|]. intros da E. apply rd4_good in E as (-> & _).
  apply contained_if; intros Q1; [auto with img|]. apply contained_if; intros Q2; [auto with img|].
  apply contained_if; intros Q3; [auto with img|]. apply contained_if; intros Q4; [auto with img|]. cbv zeta.
  destruct (inflate _ _); auto with img. apply contained_if; intros Q; [|auto with img]. exfalso.
  pose proof (word_range file 7 B) as W1. pose proof (word_range file 20 B) as W2. unfold is_u32 in *.
  unfold u32 in Q. rewrite Z.mod_small in Q by lia. unfold blen in *. rewrite skipn_length in Q. lia.
Qed.

Lemma Forall_firstn' {X} (P : X -> Prop) n l : Forall P l -> Forall P (firstn n l).
Proof. intros H. apply Forall_forall. intros x I. apply (proj1 (Forall_forall _ _) H). rewrite <- (firstn_skipn n l). apply in_or_app. left. exact I. Qed.
Lemma Forall_skipn' {X} (P : X -> Prop) n l : Forall P l -> Forall P (skipn n l).
Proof. intros H. apply Forall_forall. intros x I. apply (proj1 (Forall_forall _ _) H). rewrite <- (firstn_skipn n l). apply in_or_app. right. exact I. Qed.

(* The buffer after loading: bytes, a header, and (when it was compressed) a data offset inside it. *)
Lemma load_good file buf : bytes file -> load inflate fresh file = IGood buf ->
  bytes buf /\ 24 <= blen buf /\ (buf = file /\ byte_at file 6 = 0 \/ word_at buf 20 <= blen buf).
Proof.
  intros B H. unfold load, HDR in H. destruct (blen file <? 24) eqn:L; [discriminate|]. igood H m E. hif H.
  igood H v E2. hif H. igood H c E3. apply rd1_good in E3 as (-> & _).
  destruct (byte_at file 6 =? 1) eqn:C.
  2:{ destruct (byte_at file 6 =? 0) eqn:C0; [|discriminate]. injection H as <-. split; [exact B|]. split; [lia|]. left. split; [reflexivity|lia]. }
  unfold decompress in H. igood H ds E1. igood H im E4. igood H da E5.
  apply rd4_good in E1 as (-> & _). apply rd4_good in E4 as (-> & _). apply rd4_good in E5 as (-> & _).
  destruct (blen file <? word_at file 7) eqn:Q1; [discriminate|]. destruct (blen file <? word_at file 20) eqn:Q2; [discriminate|].
  unfold HDR in H. destruct (word_at file 20 <? 24) eqn:Q3; [discriminate|]. destruct (word_at file 11 <? word_at file 20) eqn:Q4; [discriminate|].
  cbv zeta in H. match type of H with match ?i with _ => _ end = _ => destruct i as [out| |] eqn:I; [|discriminate|match type of H with (if ?b then _ else _) = _ => destruct b end; discriminate] end. injection H as <-.
  destruct (ZL _ _ _ I) as [Ob Ol]. destruct (AL (word_at file 11 - word_at file 20) ltac:(lia)) as [Fb Fl].
  set (room := word_at file 11 - word_at file 20) in *. set (da := word_at file 20) in *.
  assert (LN : blen (firstn (Z.to_nat da) file ++ out ++ skipn (length out) (fresh room)) = word_at file 11).
  { unfold blen in *. rewrite !app_length, firstn_length, skipn_length. unfold room in *. lia. }
  split; [|split].
  - unfold bytes. rewrite !Forall_app. split; [apply Forall_firstn'; exact B|]. split; [exact Ob|apply Forall_skipn'; exact Fb].
  - lia.
  - right. rewrite LN. replace (word_at _ 20) with da; [lia|]. unfold da, word_at.
    assert (X : forall o, 0 <= o < da -> byte_at (firstn (Z.to_nat da) file ++ out ++ skipn (length out) (fresh room)) o = byte_at file o).
    { intros o O'. unfold byte_at. unfold blen in *. rewrite app_nth1 by (rewrite firstn_length; lia).
      rewrite <- (firstn_skipn (Z.to_nat da) file) at 2. rewrite app_nth1; [reflexivity|]. rewrite firstn_length. lia. }
    rewrite !X by lia. reflexivity.
Qed.
End Load.

Lemma validate_contained inflate fresh file : zlib inflate -> allocator fresh -> bytes file -> honest_offsets file ->
  (forall buf, load inflate fresh file = IGood buf -> roomy buf) ->
  contained (validate_image inflate fresh false file).
Proof.
  intros ZL AL B HO R. unfold validate_image. apply contained_bind; [apply load_contained; assumption|].
  intros buf E. destruct (load_good inflate fresh ZL AL file buf B E) as (BB & L24 & X). specialize (R buf E).
  assert (D : word_at buf 20 <= blen buf). { destruct X as [[-> C0]|X]; [apply HO; exact C0|exact X]. }
  apply contained_bind; [apply container_contained; assumption|]. intros secs C.
  apply sections_contained; try assumption. apply container_good; assumption.
Qed.
