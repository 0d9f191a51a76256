From Verif Require Import Base Base_Proofs Label_Model Label_Spec.
From Coq Require Import ZifyBool.
Ltac Zify.zify_post_hook ::= Z.div_mod_to_equations.

Definition HALF : Z := 1073741823.
Lemma HALF_eq : INT_MAX / 2 = HALF.
Proof. reflexivity. Qed.

(* Status words. *)
Definition link (us : list nat) : Z := match us with [] => 0 | i :: _ => 8 * (Z.of_nat i + 1) end.
Lemma even_free x : 0 <= x -> is_bound (2 * x) = false.
Proof.
  intros X. unfold is_bound, kBound. replace (Z.land (2 * x) 1) with 0; [reflexivity|].
  change 1 with (Z.ones 1) at 1. rewrite Z.land_ones by lia. change (2 ^ 1) with 2. lia.
Qed.
Lemma odd_bound x : 0 <= x -> is_bound (2 * x + 1) = true.
Proof.
  intros X. unfold is_bound, kBound. replace (Z.land (2 * x + 1) 1) with 1; [reflexivity|].
  change 1 with (Z.ones 1) at 3. rewrite Z.land_ones by lia. change (2 ^ 1) with 2. lia.
Qed.
Lemma lor_one x : Z.lor (2 * x) 1 = 2 * x + 1.
Proof.
  symmetry. apply Z.add_nocarry_lxor || idtac.
  rewrite <- Z.lxor_lor by (apply Z.bits_inj'; intros k K; rewrite Z.land_spec, Z.bits_0;
    destruct (Z.eq_dec k 0) as [->|N]; [rewrite Z.testbit_even_0; reflexivity|];
    replace (Z.testbit 1 k) with false; [apply andb_false_r|]; symmetry; change 1 with (2 ^ 0); apply Z.pow2_bits_false; lia).
  apply Z.add_nocarry_lxor. apply Z.bits_inj'. intros k K. rewrite Z.land_spec, Z.bits_0.
  destruct (Z.eq_dec k 0) as [->|N]; [now rewrite Z.testbit_even_0|].
  replace (Z.testbit 1 k) with false; [apply andb_false_r|]. symmetry. change 1 with (2 ^ 0). apply Z.pow2_bits_false. lia.
Qed.
Lemma shl1 x : Z.shiftl x 1 = 2 * x.
Proof. rewrite Z.shiftl_mul_pow2 by lia. change (2 ^ 1) with 2. lia. Qed.
Lemma shr1 x : Z.shiftr x 1 = x / 2.
Proof. rewrite Z.shiftr_div_pow2 by lia. reflexivity. Qed.
Lemma u32_small x : 0 <= x < two32 -> u32 x = x.
Proof. intros X. unfold u32. apply Z.mod_small. exact X. Qed.
Lemma wrap32_small x : 0 <= x < two31 -> wrap32 x = x.
Proof. intros X. apply wrap32_id. unfold is_i32, two31 in *. lia. Qed.
Lemma to_offset x : 0 <= x <= 2 * HALF + 1 -> label_ToOffset x = x / 2.
Proof.
  intros X. unfold HALF in X. unfold label_ToOffset. rewrite wrap32_small by (unfold two31; lia). rewrite shr1.
  apply u32_small. unfold two32. lia.
Qed.

Lemma nth_set c : forall i v j, (i < length c)%nat -> nth j (set_cell c i v) 0 = if Nat.eqb j i then v else nth j c 0.
Proof.
  induction c as [|x c IH]; intros [|i] v [|j] L; cbn in *; try lia; auto. apply IH. lia.
Qed.
Lemma length_set c : forall i v, length (set_cell c i v) = length c.
Proof. induction c as [|x c IH]; intros [|i] v; cbn; auto. Qed.

(* References to a label, most recent first. *)
Definition is_ref (l : nat) (e : item) : bool := match e with Ref l' => Nat.eqb l l' | _ => false end.
Fixpoint uses_rev (r : list item) (l : nat) : list nat :=
  match r with [] => [] | e :: r' => if is_ref l e then length r' :: uses_rev r' l else uses_rev r' l end.
Definition uses (es : list item) (l : nat) : list nat := uses_rev (rev es) l.
Lemma uses_snoc es e l : uses (es ++ [e]) l = if is_ref l e then length es :: uses es l else uses es l.
Proof. unfold uses. rewrite rev_app_distr. cbn. now rewrite rev_length. Qed.
Lemma is_ref_spec l e : is_ref l e = true <-> e = Ref l.
Proof.
  destruct e; cbn; try (split; discriminate). rewrite Nat.eqb_eq. split; [now intros ->|now intros [= ->]].
Qed.
Lemma nth_snoc {A} (l : list A) x i : nth_error (l ++ [x]) i = if Nat.eqb i (length l) then Some x else nth_error l i.
Proof.
  destruct (Nat.eqb_spec i (length l)) as [->|N].
  - rewrite nth_error_app2 by lia. now rewrite Nat.sub_diag.
  - destruct (Nat.lt_ge_cases i (length l)) as [L|L]; [now rewrite nth_error_app1|].
    rewrite (proj2 (nth_error_None (l ++ [x]) i)) by (rewrite app_length; cbn; lia).
    symmetry. now apply nth_error_None.
Qed.
Lemma uses_in es l : forall i, In i (uses es l) <-> nth_error es i = Some (Ref l).
Proof.
  induction es as [|e es IH] using rev_ind; intros i; [cbn; destruct i; cbn; split; try tauto; discriminate|].
  rewrite uses_snoc, nth_snoc. destruct (Nat.eqb_spec i (length es)) as [->|N].
  - assert (NI : ~ In (length es) (uses es l)).
    { rewrite IH. rewrite (proj2 (nth_error_None es (length es))) by lia. discriminate. }
    destruct (is_ref l e) eqn:R.
    + apply is_ref_spec in R as ->. cbn. tauto.
    + split; [tauto|]. intros [= ->]. cbn in R. now rewrite Nat.eqb_refl in R.
  - destruct (is_ref l e); cbn [In]; rewrite IH; [|reflexivity]. split; [intros [E|H]; [congruence|exact H]|now right].
Qed.
Lemma uses_nodup es l : NoDup (uses es l).
Proof.
  induction es as [|e es IH] using rev_ind; [constructor|]. rewrite uses_snoc. destruct (is_ref l e); [|exact IH].
  constructor; [|exact IH]. rewrite uses_in. rewrite (proj2 (nth_error_None es (length es))) by lia. discriminate.
Qed.
Lemma uses_lt es l i : In i (uses es l) -> (i < length es)%nat.
Proof. rewrite uses_in. intros H. apply nth_error_Some. congruence. Qed.

Fixpoint chain (c : list Z) (us : list nat) : Prop :=
  match us with [] => True | i :: r => nth i c 0 = link r /\ chain c r end.
Lemma chain_ext c c' us : (forall i, In i us -> nth i c' 0 = nth i c 0) -> chain c us -> chain c' us.
Proof.
  induction us as [|i us IH]; intros E H; [exact I|]. destruct H as [H1 H2]. split.
  - rewrite E by now left. exact H1.
  - apply IH; [|exact H2]. intros j J. apply E. now right.
Qed.

Lemma link_range us n : (forall i, In i us -> (i < n)%nat) -> 4 * Z.of_nat n <= HALF -> 0 <= link us <= 2 * HALF.
Proof. intros U N. destruct us as [|i us]; cbn [link]; [unfold HALF; lia|]. specialize (U i (or_introl eq_refl)). lia. Qed.
Lemma link_zero us : link us = 0 -> us = [].
Proof. destruct us as [|i us]; [reflexivity|]. cbn [link]. lia. Qed.
Lemma link_even us : exists x, link us = 2 * x /\ 0 <= x.
Proof. destruct us as [|i us]; cbn [link]; [exists 0; lia|]. exists (4 * (Z.of_nat i + 1)). lia. Qed.

Lemma patch_ok v : forall us fuel c, (length us < fuel)%nat -> NoDup us ->
  (forall i, In i us -> (i < length c)%nat) -> 4 * Z.of_nat (length c) <= HALF -> chain c us ->
  exists c', patch fuel (link us) v c = Done c' /\ length c' = length c /\
    forall j, nth j c' 0 = if existsb (Nat.eqb j) us then wrap32 v else nth j c 0.
Proof.
  induction us as [|i us IH]; intros fuel c F ND LT SM CH.
  - exists c. destruct fuel; cbn; auto.
  - destruct fuel as [|n]; [cbn in F; lia|]. cbn [patch].
    assert (IL : (i < length c)%nat) by (apply LT; now left).
    inversion ND as [|? ? NI ND']; subst. destruct CH as [CH1 CH2].
    assert (LK : link (i :: us) = 8 * (Z.of_nat i + 1)) by reflexivity.
    destruct (Z.eqb_spec (link (i :: us)) 0) as [E|_]; [lia|].
    rewrite to_offset by (rewrite LK; lia). rewrite LK. replace (8 * (Z.of_nat i + 1) / 2) with (4 * (Z.of_nat i + 1)) by lia.
    cbn zeta. replace ((4 <=? 4 * (Z.of_nat i + 1)) && (4 * (Z.of_nat i + 1) <=? 4 * Z.of_nat (length c)))%bool with true by lia.
    cbn [oassert obind].
    assert (CI : cell_index (4 * (Z.of_nat i + 1)) = i) by (unfold cell_index; lia). rewrite CI, CH1.
    rewrite u32_small by (pose proof (link_range us (length c) (fun k K => LT k (or_intror K)) SM); unfold HALF, two32 in *; lia).
    destruct (IH n (set_cell c i (wrap32 v))) as (c' & P & L & N).
    + cbn in F; lia.
    + exact ND'.
    + intros k K. rewrite length_set. apply LT. now right.
    + now rewrite length_set.
    + eapply chain_ext; [|exact CH2]. intros k K. rewrite nth_set by exact IL.
      destruct (Nat.eqb_spec k i) as [->|NE]; [contradiction|reflexivity].
    + exists c'. split; [exact P|]. split; [now rewrite L, length_set|]. intros j. rewrite N. cbn [existsb].
      rewrite nth_set by exact IL. destruct (Nat.eqb j i), (existsb (Nat.eqb j) us); reflexivity.
Qed.

(* The invariant. *)
Definition cell_right (env denv : nat -> option Z) (e : item) (v : Z) : Prop :=
  match e with
  | Word w => v = wrap32 w
  | Ref l => match env l with Some a => v = wrap32 a | None => True end
  | DataRef d => v = wrap32 (match denv d with Some w => w | None => 0xb0b0b0b0 end)
  end.
Record Inv (s : asm) (es : list item) (env denv : nat -> option Z) : Prop := {
  inv_len : length (code s) = length es;
  inv_lab : forall l, match env l with
                      | Some v => lab s l = 2 * v + 1 /\ 0 <= v <= HALF
                      | None => lab s l = link (uses es l) /\ chain (code s) (uses es l)
                      end;
  inv_data : forall d, match denv d with
                       | Some _ => exists x, dlab s d = 2 * x + 1 /\ 0 < x
                       | None => (dlab s d = 0 /\ ~ In (DataRef d) es) \/
                                 (exists i, dlab s d = 8 * (Z.of_nat i + 1) /\ nth_error es i = Some (DataRef d) /\
                                            forall j, nth_error es j = Some (DataRef d) -> j = i)
                       end;
  inv_data_used : forall d, denv d <> None -> In (DataRef d) es;
  inv_cell : forall i e, nth_error es i = Some e -> cell_right env denv e (nth i (code s) 0)
}.

Lemma Inv_fresh : Inv fresh [] (fun _ => None) (fun _ => None).
Proof.
  constructor; cbn; auto; try congruence. intros [|i] e H; discriminate.
Qed.

Lemma chain_snoc c us x : (forall i, In i us -> (i < length c)%nat) -> chain c us -> chain (c ++ [x]) us.
Proof. intros U. apply chain_ext. intros i K. apply app_nth1. now apply U. Qed.

(* Writing one plain or data item. *)
Lemma Inv_write s es env denv w : Inv s es env denv -> Inv (write w s) (es ++ [Word w]) env denv.
Proof.
  intros [L A D DU C]. constructor; cbn [code lab dlab write].
  - rewrite !app_length. cbn. now rewrite L.
  - intros l. specialize (A l). destruct (env l); [exact A|]. rewrite uses_snoc. cbn [is_ref].
    split; [apply A|]. apply chain_snoc; [|apply A]. intros i K. rewrite L. eapply uses_lt, K.
  - intros d. specialize (D d). destruct (denv d); [exact D|]. destruct D as [[D1 D2]|(i & D1 & D2 & D3)]; [left|right].
    + split; [exact D1|]. rewrite in_app_iff. cbn. intuition discriminate.
    + exists i. split; [exact D1|]. split.
      * rewrite nth_error_app1 by (apply nth_error_Some; congruence). exact D2.
      * intros j. rewrite nth_snoc. destruct (Nat.eqb j (length es)); [discriminate|apply D3].
  - intros d H. apply in_app_iff. left. now apply DU.
  - intros i e H. rewrite nth_snoc in H. destruct (Nat.eqb_spec i (length es)) as [->|N].
    + injection H as <-. cbn. rewrite app_nth2 by lia. rewrite L, Nat.sub_diag. reflexivity.
    + assert (i < length es)%nat by (apply nth_error_Some; congruence). rewrite app_nth1 by lia. now apply C.
Qed.
Lemma Inv_write_all ws : forall s es env denv, Inv s es env denv -> Inv (write_all ws s) (es ++ map Word ws) env denv.
Proof.
  induction ws as [|w ws IH]; intros s es env denv H; cbn [write_all map]; [now rewrite app_nil_r|].
  replace (es ++ Word w :: map Word ws) with ((es ++ [Word w]) ++ map Word ws) by now rewrite <- app_assoc.
  apply IH. now apply Inv_write.
Qed.

Lemma Inv_encode s es env denv l : Inv s es env denv -> 4 * Z.of_nat (length (es ++ [Ref l])) <= HALF ->
  exists s', encodeAbsoluteAddress l s = Done s' /\ Inv s' (es ++ [Ref l]) env denv.
Proof.
  intros H SM. destruct H as [L A D DU C]. rewrite app_length in SM. cbn [length] in SM.
  assert (DD : forall s', dlab s' = dlab s -> forall d, match denv d with
                       | Some _ => exists x, dlab s' d = 2 * x + 1 /\ 0 < x
                       | None => (dlab s' d = 0 /\ ~ In (DataRef d) (es ++ [Ref l])) \/
                                 (exists i, dlab s' d = 8 * (Z.of_nat i + 1) /\ nth_error (es ++ [Ref l]) i = Some (DataRef d) /\
                                            forall j, nth_error (es ++ [Ref l]) j = Some (DataRef d) -> j = i)
                       end).
  { intros s' E d. rewrite E. specialize (D d). destruct (denv d); [exact D|]. destruct D as [[D1 D2]|(i & D1 & D2 & D3)]; [left|right].
    - split; [exact D1|]. rewrite in_app_iff. cbn. intuition discriminate.
    - exists i. split; [exact D1|]. split.
      + rewrite nth_error_app1 by (apply nth_error_Some; congruence). exact D2.
      + intros j. rewrite nth_snoc. destruct (Nat.eqb j (length es)); [discriminate|apply D3]. }
  assert (CC : forall x i e, nth_error (es ++ [Ref l]) i = Some e -> cell_right env denv (Ref l) x ->
                 cell_right env denv e (nth i (code s ++ [x]) 0)).
  { intros x i e H X. rewrite nth_snoc in H. destruct (Nat.eqb_spec i (length es)) as [->|N].
    - injection H as <-. rewrite app_nth2 by lia. rewrite L, Nat.sub_diag. exact X.
    - assert (i < length es)%nat by (apply nth_error_Some; congruence). rewrite app_nth1 by lia. now apply C. }
  assert (AA : forall x k, k <> l -> match env k with
                      | Some v => lab s k = 2 * v + 1 /\ 0 <= v <= HALF
                      | None => lab s k = link (uses (es ++ [Ref l]) k) /\ chain (code s ++ [x]) (uses (es ++ [Ref l]) k)
                      end).
  { intros x k K. specialize (A k). destruct (env k); [exact A|]. rewrite uses_snoc. cbn [is_ref].
    destruct (Nat.eqb_spec k l); [contradiction|]. split; [apply A|]. apply chain_snoc; [|apply A].
    intros i I. rewrite L. eapply uses_lt, I. }
  pose proof (A l) as AL. unfold encodeAbsoluteAddress. destruct (env l) as [v|] eqn:E.
  - destruct AL as [AL V]. rewrite AL. rewrite odd_bound by lia. eexists. split; [reflexivity|].
    rewrite to_offset by (unfold HALF in *; lia). replace ((2 * v + 1) / 2) with v by lia.
    constructor; cbn [code lab dlab write].
    + rewrite !app_length. cbn. now rewrite L.
    + intros k. destruct (Nat.eq_dec k l) as [->|N]; [rewrite E; auto|]. now apply AA.
    + apply (DD (write v s)). reflexivity.
    + intros d H. apply in_app_iff. left. now apply DU.
    + intros i e H. apply CC; [exact H|]. cbn. rewrite E. reflexivity.
  - destruct AL as [AL CH]. rewrite AL. destruct (link_even (uses es l)) as (x & LE & X). rewrite LE, even_free by exact X.
    unfold addPending. rewrite HALF_eq. unfold pc. rewrite L.
    replace (4 * Z.of_nat (length es) + 4 <=? HALF) with true by lia. cbn [oassert obind].
    eexists. split; [reflexivity|]. rewrite shl1, u32_small by (unfold HALF, two32 in *; lia).
    pose proof (link_range (uses es l) (length es) (fun i I => uses_lt es l i I) ltac:(lia)) as LR.
    rewrite AL. constructor; cbn [code lab dlab write set_lab].
    + rewrite !app_length. cbn. now rewrite L.
    + intros k. unfold point. destruct (Nat.eqb_spec k l) as [->|N]; [|now apply AA]. rewrite E.
      rewrite uses_snoc. cbn [is_ref]. rewrite Nat.eqb_refl. cbn [link chain]. split; [lia|]. split.
      * rewrite app_nth2 by lia. rewrite L, Nat.sub_diag. cbn. apply wrap32_small. unfold HALF, two31 in *. lia.
      * apply chain_snoc; [|exact CH]. intros i I. rewrite L. eapply uses_lt, I.
    + intros d. exact (DD s eq_refl d).
    + intros d H. apply in_app_iff. left. now apply DU.
    + intros i e H. apply CC; [exact H|]. cbn. now rewrite E.
Qed.

Lemma Inv_emit_data s es env denv d : Inv s es env denv -> ~ In (DataRef d) es ->
  4 * Z.of_nat (length (es ++ [DataRef d])) <= HALF ->
  exists s', data_use d (pc (write 0xb0b0b0b0 s)) (write 0xb0b0b0b0 s) = Done s' /\ Inv s' (es ++ [DataRef d]) env denv.
Proof.
  intros H NU SM. destruct H as [L A D DU C]. rewrite app_length in SM. cbn [length] in SM.
  assert (EN : denv d = None). { destruct (denv d) eqn:E; [|reflexivity]. exfalso. apply NU, DU. congruence. }
  pose proof (D d) as Dd. rewrite EN in Dd. destruct Dd as [[D1 D2]|(i & _ & D2 & _)]; [|exfalso; apply NU; eapply nth_error_In, D2].
  unfold data_use. cbn [write dlab]. rewrite D1. change (is_used 0) with false. cbn [negb oassert obind]. rewrite HALF_eq.
  unfold pc. cbn [code write]. rewrite app_length, L. cbn [length].
  replace (4 * Z.of_nat (length es + 1) <=? HALF) with true by lia. cbn [oassert obind].
  eexists. split; [reflexivity|]. rewrite shl1, u32_small by (unfold HALF, two32 in *; lia).
  constructor; cbn [code lab dlab write set_dlab].
  - rewrite !app_length. cbn. now rewrite L.
  - intros l. specialize (A l). destruct (env l); [exact A|]. rewrite uses_snoc. cbn [is_ref].
    split; [apply A|]. apply chain_snoc; [|apply A]. intros i K. rewrite L. eapply uses_lt, K.
  - intros k. unfold point. destruct (Nat.eqb_spec k d) as [->|N].
    + rewrite EN. right. exists (length es). split; [lia|]. split; [now rewrite nth_snoc, Nat.eqb_refl|].
      intros j. rewrite nth_snoc. destruct (Nat.eqb_spec j (length es)) as [->|NJ]; [reflexivity|].
      intros H. exfalso. apply NU. eapply nth_error_In, H.
    + specialize (D k). destruct (denv k); [exact D|]. destruct D as [[D1' D2']|(i & D1' & D2' & D3')]; [left|right].
      * split; [exact D1'|]. rewrite in_app_iff. cbn. intros [K|[K|[]]]; [now apply D2'|]. injection K as ->. now apply N.
      * exists i. split; [exact D1'|]. split.
        -- rewrite nth_error_app1 by (apply nth_error_Some; congruence). exact D2'.
        -- intros j. rewrite nth_snoc. destruct (Nat.eqb j (length es)); [|apply D3']. intros [= ->]. now destruct N.
  - intros k K. apply in_app_iff. left. now apply DU.
  - intros i e H. rewrite nth_snoc in H. destruct (Nat.eqb_spec i (length es)) as [->|N].
    + injection H as <-. cbn [cell_right]. rewrite EN. rewrite app_nth2 by lia. rewrite L, Nat.sub_diag. reflexivity.
    + assert (i < length es)%nat by (apply nth_error_Some; congruence). rewrite app_nth1 by lia. now apply C.
Qed.

Definition upd (env : nat -> option Z) (l : nat) (v : Z) : nat -> option Z := fun k => if Nat.eqb k l then Some v else env k.

Lemma Inv_bind s es env denv l v : Inv s es env denv -> env l = None -> 0 <= v <= HALF ->
  4 * Z.of_nat (length es) <= HALF ->
  exists s', bind_to l v s = Done s' /\ Inv s' es (upd env l v) denv.
Proof.
  intros [L A D DU C] E V SM. unfold bind_to. replace (0 <=? v) with true by lia. cbn [oassert obind].
  pose proof (A l) as AL. rewrite E in AL. destruct AL as [AL CH]. rewrite AL.
  destruct (link_even (uses es l)) as (x & LE & X).
  assert (NB : is_bound (link (uses es l)) = false) by (rewrite LE; now apply even_free). rewrite NB. cbn [negb oassert obind].
  destruct (patch_ok v (uses es l) (S (length (code s))) (code s)) as (c' & P & LC & N).
  - rewrite L. apply Nat.lt_succ_r.
    rewrite <- (seq_length (length es) 0). apply NoDup_incl_length; [apply uses_nodup|].
    intros i I. apply in_seq. apply uses_lt in I. lia.
  - apply uses_nodup.
  - intros i I. rewrite L. eapply uses_lt, I.
  - now rewrite L.
  - exact CH.
  - rewrite P. cbn [obind]. unfold label_bind. cbn [lab code dlab]. rewrite AL, NB.
    cbn [negb oassert obind]. rewrite shl1. rewrite (u32_small (2 * v)) by (unfold HALF, two32 in *; lia).
    unfold kBound. rewrite lor_one. rewrite to_offset by (unfold HALF in *; lia). replace ((2 * v + 1) / 2) with v by lia.
    rewrite (u32_small v) by (unfold HALF, two32 in *; lia). rewrite Z.eqb_refl. cbn [oassert obind].
    eexists. split; [reflexivity|].
    assert (NI : forall i e, nth_error es i = Some e -> e <> Ref l -> nth i c' 0 = nth i (code s) 0).
    { intros i e H NE. rewrite N. destruct (existsb (Nat.eqb i) (uses es l)) eqn:EX; [|reflexivity].
      apply existsb_exists in EX as (j & J & Q). apply Nat.eqb_eq in Q. subst j. apply uses_in in J. congruence. }
    constructor; cbn [code lab dlab set_lab].
    + now rewrite LC.
    + intros k. unfold upd, point. destruct (Nat.eqb_spec k l) as [->|NK]; [auto|]. specialize (A k).
      destruct (env k); [exact A|]. split; [apply A|]. eapply chain_ext; [|apply A].
      intros i I. apply uses_in in I. apply (NI i (Ref k) I). congruence.
    + exact D.
    + exact DU.
    + intros i e H. specialize (C i e H). destruct e as [w|k|d]; cbn [cell_right] in *.
      * rewrite (NI i (Word w) H) by discriminate. exact C.
      * unfold upd. destruct (Nat.eqb_spec k l) as [->|NK].
        -- rewrite N. replace (existsb (Nat.eqb i) (uses es l)) with true; [reflexivity|]. symmetry. apply existsb_exists.
           exists i. split; [now apply uses_in|apply Nat.eqb_refl].
        -- rewrite (NI i (Ref k) H) by congruence. exact C.
      * rewrite (NI i (DataRef d) H) by discriminate. exact C.
Qed.

Lemma Inv_bind_data s es env denv d v : Inv s es env denv -> In (DataRef d) es -> denv d = None ->
  4 * Z.of_nat (length es) <= HALF ->
  exists s', data_bind_to d v s = Done s' /\ Inv s' es env (upd denv d v).
Proof.
  intros [L A D DU C] IU E SM. pose proof (D d) as Dd. rewrite E in Dd. destruct Dd as [[_ NU]|(i & D1 & D2 & D3)]; [contradiction|].
  assert (IL : (i < length es)%nat) by (apply nth_error_Some; congruence).
  unfold data_bind_to. rewrite D1. replace (8 * (Z.of_nat i + 1)) with (2 * (4 * (Z.of_nat i + 1))) by lia.
  rewrite even_free by lia. cbn [negb oassert obind]. unfold data_ToOffset. rewrite shr1.
  replace (2 * (4 * (Z.of_nat i + 1)) / 2) with (4 * (Z.of_nat i + 1)) by lia. unfold pc. rewrite L.
  replace ((4 <=? 4 * (Z.of_nat i + 1)) && (4 * (Z.of_nat i + 1) <=? 4 * Z.of_nat (length es)))%bool with true by lia.
  cbn [oassert obind]. assert (CI : cell_index (4 * (Z.of_nat i + 1)) = i) by (unfold cell_index; lia). rewrite CI.
  pose proof (C i _ D2) as CD. cbn [cell_right] in CD. rewrite E in CD. rewrite CD. unfold marker. rewrite Z.eqb_refl.
  cbn [oassert obind]. unfold data_bind. cbn [dlab]. rewrite D1.
  replace (8 * (Z.of_nat i + 1)) with (2 * (4 * (Z.of_nat i + 1))) by lia.
  unfold is_used. rewrite even_free by lia. rewrite shr1. replace (2 * (4 * (Z.of_nat i + 1)) / 2) with (4 * (Z.of_nat i + 1)) by lia.
  replace (4 * (Z.of_nat i + 1) =? 0) with false by lia. cbn [negb orb andb oassert obind]. unfold kBound. rewrite lor_one.
  eexists. split; [reflexivity|].
  assert (NI : forall j e, nth_error es j = Some e -> e <> DataRef d ->
             nth j (set_cell (code s) i (wrap32 v)) 0 = nth j (code s) 0).
  { intros j e H NE. rewrite nth_set by lia. destruct (Nat.eqb_spec j i) as [->|_]; [congruence|reflexivity]. }
  constructor; cbn [code lab dlab set_dlab].
  - now rewrite length_set.
  - intros k. specialize (A k). destruct (env k); [exact A|]. split; [apply A|]. eapply chain_ext; [|apply A].
    intros j J. apply uses_in in J. apply (NI j _ J). discriminate.
  - intros k. unfold upd, point. destruct (Nat.eqb_spec k d) as [->|NK]; [|apply D].
    exists (4 * (Z.of_nat i + 1)). lia.
  - intros k. unfold upd. destruct (Nat.eqb_spec k d) as [Q|NK]; [intros _; rewrite Q; exact IU|apply DU].
  - intros j e H. specialize (C j e H). destruct e as [w|k|k]; cbn [cell_right] in *.
    + rewrite (NI j _ H) by discriminate. exact C.
    + rewrite (NI j _ H) by discriminate. exact C.
    + unfold upd. destruct (Nat.eqb_spec k d) as [->|NK].
      * apply D3 in H. subst j. rewrite nth_set by lia. now rewrite Nat.eqb_refl.
      * rewrite (NI j _ H) by congruence. exact C.
Qed.

(* Histories, by their last operation. *)
Lemma arun_snoc h o s : arun (h ++ [o]) s = obind (arun h s) (aexec o).
Proof.
  revert s. induction h as [|a h IH]; intros s; cbn.
  - destruct (aexec o s); reflexivity.
  - destruct (aexec a s); cbn; auto.
Qed.
Lemma items_snoc h o : items (h ++ [o]) = items h ++ items_of o.
Proof. unfold items. rewrite flat_map_app. cbn. now rewrite app_nil_r. Qed.
Definition place_here (n : nat) (o : aop) (l : nat) : option Z :=
  match o with
  | Bind l' => if Nat.eqb l l' then Some (4 * Z.of_nat n) else None
  | BindTo l' v => if Nat.eqb l l' then Some v else None
  | _ => None
  end.
Lemma placed_snoc h o l : forall n, placed n (h ++ [o]) l =
  match placed n h l with Some v => Some v | None => place_here (n + length (items h)) o l end.
Proof.
  induction h as [|a h IH]; intros n.
  - cbn [app placed]. replace (n + length (items []))%nat with n by (cbn; lia). destruct o; reflexivity.
  - cbn [app placed]. rewrite IH. replace (n + length (items (a :: h)))%nat with (n + length (items_of a) + length (items h))%nat
      by (unfold items; cbn; rewrite app_length; lia).
    destruct a; try reflexivity; destruct (Nat.eqb l l0); reflexivity.
Qed.
Lemma valued_snoc h o d : valued (h ++ [o]) d =
  match valued h d with Some v => Some v | None => match o with BindData d' v => if Nat.eqb d d' then Some v else None | _ => None end end.
Proof.
  induction h as [|a h IH]; [cbn; destruct o; reflexivity|]. cbn [app valued]. destruct a; rewrite ?IH; try reflexivity.
  destruct (Nat.eqb d d0); [reflexivity|reflexivity].
Qed.
Lemma Inv_env s es env denv env' denv' : (forall l, env l = env' l) -> (forall d, denv d = denv' d) ->
  Inv s es env denv -> Inv s es env' denv'.
Proof.
  intros E D H. destruct H as [L A DD DU C]. constructor; auto.
  - intros l. rewrite <- E. apply A.
  - intros d. rewrite <- D. apply DD.
  - intros d. rewrite <- D. apply DU.
  - intros i e H. specialize (C i e H). destruct e; cbn in *; rewrite <- ?E, <- ?D; exact C.
Qed.

Lemma history_ok h : well_used h ->
  exists s, arun h fresh = Done s /\ Inv s (items h) (placed 0 h) (valued h).
Proof.
  induction h as [|o h IH] using rev_ind; intros [AL SM].
  - exists fresh. split; [reflexivity|]. apply Inv_fresh.
  - assert (AO : allowed h o) by (apply (AL h o []); reflexivity).
    rewrite items_snoc, app_length, HALF_eq in SM.
    destruct IH as (s & R & H).
    { split; [|rewrite HALF_eq; lia]. intros b x a E. apply (AL b x (a ++ [o])). now rewrite E, <- app_assoc. }
    rewrite arun_snoc, R, items_snoc. cbn [obind].
    assert (KEEP : (forall l, place_here (length (items h)) o l = None) ->
              (forall d, match o with BindData d' v => if Nat.eqb d d' then Some v else None | _ => None end = None) ->
              forall s' es, Inv s' es (placed 0 h) (valued h) -> Inv s' es (placed 0 (h ++ [o])) (valued (h ++ [o]))).
    { intros P Q s' es. apply Inv_env.
      - intros l. rewrite placed_snoc. cbn [Nat.add]. rewrite P. now destruct (placed 0 h l).
      - intros d. rewrite valued_snoc, Q. now destruct (valued h d). }
    destruct o as [cs|op l|op d|op n l|v l|op l n|l|l v|d v]; cbn [aexec items_of] in *.
    + eexists. split; [reflexivity|]. apply KEEP; [reflexivity..|]. now apply Inv_write_all.
    + apply Inv_write with (w := op) in H. destruct (Inv_encode _ _ _ _ l H) as (s' & E & H').
      { rewrite !app_length. cbn [length] in *. lia. }
      exists s'. split; [exact E|]. apply KEEP; [reflexivity..|]. now rewrite <- app_assoc in H'.
    + apply Inv_write with (w := op) in H. destruct (Inv_emit_data _ _ _ _ d H) as (s' & E & H').
      { rewrite in_app_iff. cbn. intros [K|[K|[]]]; [now apply AO|discriminate]. }
      { rewrite !app_length. cbn [length] in *. lia. }
      exists s'. split; [exact E|]. apply KEEP; [reflexivity..|]. now rewrite <- app_assoc in H'.
    + apply Inv_write with (w := op) in H. apply Inv_write with (w := n) in H. destruct (Inv_encode _ _ _ _ l H) as (s' & E & H').
      { rewrite !app_length. cbn [length] in *. lia. }
      exists s'. split; [exact E|]. apply KEEP; [reflexivity..|]. rewrite <- !app_assoc in H'. exact H'.
    + apply Inv_write with (w := v) in H. destruct (Inv_encode _ _ _ _ l H) as (s' & E & H').
      { rewrite !app_length. cbn [length] in *. lia. }
      exists s'. split; [exact E|]. apply KEEP; [reflexivity..|]. now rewrite <- app_assoc in H'.
    + apply Inv_write with (w := op) in H. destruct (Inv_encode _ _ _ _ l H) as (s' & E & H').
      { rewrite !app_length. cbn [length] in *. lia. }
      rewrite E. cbn [obind]. apply Inv_write with (w := n) in H'.
      eexists. split; [reflexivity|]. apply KEEP; [reflexivity..|]. rewrite <- !app_assoc in H'. exact H'.
    + rewrite app_nil_r. cbn [length] in SM. cbn [allowed] in AO. unfold bind, pc. rewrite (inv_len _ _ _ _ H).
      rewrite wrap32_small by (unfold HALF, two31 in *; lia).
      destruct (Inv_bind _ _ _ _ l (4 * Z.of_nat (length (items h))) H AO ltac:(lia) ltac:(lia)) as (s' & E & H').
      exists s'. split; [exact E|]. eapply Inv_env; [| |exact H'].
      * intros k. rewrite placed_snoc. unfold upd. cbn [place_here Nat.add]. destruct (Nat.eqb_spec k l) as [->|]; [now rewrite AO|].
        now destruct (placed 0 h k).
      * intros k. rewrite valued_snoc. now destruct (valued h k).
    + rewrite app_nil_r. cbn [length] in SM. destruct AO as [AO AV]. rewrite HALF_eq in AV.
      destruct (Inv_bind _ _ _ _ l v H AO AV ltac:(lia)) as (s' & E & H').
      exists s'. split; [exact E|]. eapply Inv_env; [| |exact H'].
      * intros k. rewrite placed_snoc. unfold upd. cbn [place_here]. destruct (Nat.eqb_spec k l) as [->|]; [now rewrite AO|].
        now destruct (placed 0 h k).
      * intros k. rewrite valued_snoc. now destruct (valued h k).
    + rewrite app_nil_r. cbn [length] in SM. destruct AO as [AI AV].
      destruct (Inv_bind_data _ _ _ _ d v H AI AV ltac:(lia)) as (s' & E & H').
      exists s'. split; [exact E|]. eapply Inv_env; [| |exact H'].
      * intros k. rewrite placed_snoc. cbn [place_here]. now destruct (placed 0 h k).
      * intros k. rewrite valued_snoc. unfold upd. destruct (Nat.eqb_spec k d) as [->|]; [now rewrite AV|].
        now destruct (valued h k).
Qed.

Lemma patched h : well_used h ->
  exists s, arun h fresh = Done s /\ length (code s) = length (items h) /\
    forall i e, nth_error (items h) i = Some e -> right_cell h e (nth i (code s) 0).
Proof.
  intros W. destruct (history_ok h W) as (s & R & H). exists s. split; [exact R|]. split; [apply H|]. apply H.
Qed.

(* A loop with a forward and a backward jump, a switch table, a native index and a data address. *)
Definition demo : list aop :=
  [EmitLabel 51 0; Bind 1; Emit [7; 8]; EmitLabel 51 0; EmitData 9 0; SysReqN 135 2 1; EmitLabel 51 1;
   CaseTable 130 1 0; CaseEntry 5 1; Bind 0; BindTo 2 3; BindData 0 100].
Example demo_ok : well_used demo /\ match arun demo fresh with
  | Done s => code s = [51; 72; 7; 8; 51; 72; 9; 100; 135; 3; 1; 51; 8; 130; 1; 72; 5; 8]
  | _ => False end.
Proof.
  split; [|vm_compute; reflexivity]. split; [|vm_compute; discriminate].
  intros b o a E. unfold demo in E.
  repeat (destruct b as [|x b]; [injection E as <- _; cbn; intuition discriminate|injection E as <- E]).
  destruct b; discriminate.
Qed.
