From Verif Require Import Base Base_Proofs Bind_Model Bind_Spec.
From Coq Require Import ZifyBool.
Ltac Zify.zify_post_hook ::= Z.div_mod_to_equations.

Lemma set_nth_length {A} (l : list A) k v : length (set_nth l k v) = length l.
Proof. revert k. induction l as [|x l IH]; intros [|k]; cbn; auto. Qed.
Lemma set_nth_same {A} (l : list A) k v d : (k < length l)%nat -> nth k (set_nth l k v) d = v.
Proof. revert k. induction l as [|x l IH]; intros [|k] H; cbn in *; auto; try lia. apply IH. lia. Qed.
Lemma set_nth_other {A} (l : list A) k j v d : k <> j -> nth j (set_nth l k v) d = nth j l d.
Proof. revert k j. induction l as [|x l IH]; intros [|k] [|j] H; cbn; auto; try lia; apply IH; lia. Qed.
Lemma name_eqb_eq a b : name_eqb a b = true <-> a = b.
Proof.
  revert b. induction a as [|x a IH]; intros [|y b]; cbn; split; intros H; try congruence; auto.
  - rewrite andb_true_iff, Z.eqb_eq, IH in H. destruct H. congruence.
  - injection H as -> ->. rewrite Z.eqb_refl. now apply IH.
Qed.

Lemma make_id_eq i : 0 <= i < two31 -> make_id i = 2 * i + 1.
Proof.
  intros H. unfold make_id, u32. rewrite (Z.mod_small (i * 2)) by (unfold two31, two32 in *; lia).
  replace (i * 2) with (2 * i) by lia. destruct i as [|q|q]; try reflexivity. unfold two31 in *; lia.
Qed.

(* ---- Functions ---- *)
(* Entry points and objects correspond. *)
Record good (p : plugin) : Prop := {
  g_len : length (entrypoints p) = length (publics p);
  g_max : num_publics p < two31;
  g_entry : forall i o, nth_error (entrypoints p) i = Some (Some o) ->
    nth_error (objects p) o = Some (mkInvoker (make_id (Z.of_nat i)) (Z.of_nat i))
}.
Lemma good_loaded names k : Z.of_nat (length names) < two31 -> good (loaded names k).
Proof.
  intros H. split; cbn.
  - apply repeat_length.
  - exact H.
  - intros i o E. apply nth_error_In, repeat_spec in E. discriminate.
Qed.
(* Nothing is forgotten. *)
Definition extends (p q : plugin) : Prop :=
  publics q = publics p /\ (exists l, objects q = objects p ++ l) /\
  (forall i o, nth_error (entrypoints p) i = Some (Some o) -> nth_error (entrypoints q) i = Some (Some o)).
Lemma extends_refl p : extends p p.
Proof. split; [reflexivity|]. split; [exists []; now rewrite app_nil_r|auto]. Qed.
Lemma extends_trans p q r : extends p q -> extends q r -> extends p r.
Proof.
  intros (A & (l & B) & C) (A' & (l' & B') & C'). split; [congruence|]. split; [exists (l ++ l'); rewrite B', B; now rewrite app_assoc|auto].
Qed.
Lemma entry_spec p i : good p -> 0 <= i < num_publics p ->
  let '(r, q) := entry p i in good q /\ extends p q /\ exists o, r = Some o /\ nth_error (entrypoints q) (Z.to_nat i) = Some (Some o).
Proof.
  intros G I. unfold entry. destruct (nth (Z.to_nat i) (entrypoints p) None) as [o|] eqn:E.
  - split; [exact G|]. split; [apply extends_refl|]. exists o. split; [reflexivity|].
    rewrite <- E. apply nth_error_nth'. rewrite (g_len _ G). unfold num_publics in I. lia.
  - assert (LT : (Z.to_nat i < length (entrypoints p))%nat) by (rewrite (g_len _ G); unfold num_publics in I; lia).
    assert (NE : forall k, nth_error (set_nth (entrypoints p) (Z.to_nat i) (Some (length (objects p)))) k =
      if (k =? Z.to_nat i)%nat then Some (Some (length (objects p))) else nth_error (entrypoints p) k).
    { clear - LT. intros k. destruct (Nat.eqb_spec k (Z.to_nat i)) as [->|N].
      - rewrite (nth_error_nth' _ None) by (rewrite set_nth_length; lia). now rewrite set_nth_same.
      - destruct (nth_error (entrypoints p) k) as [x|] eqn:F.
        + assert (LK : (k < length (entrypoints p))%nat) by (apply nth_error_Some; congruence).
          rewrite (nth_error_nth' _ x) by (rewrite set_nth_length; lia). rewrite set_nth_other by lia. f_equal. now apply nth_error_nth.
        + apply nth_error_None. rewrite set_nth_length. now apply nth_error_None. }
    split; [|split].
    + split; cbn [entrypoints publics objects natives].
      * rewrite set_nth_length. apply (g_len _ G).
      * apply (g_max _ G).
      * intros k o. rewrite NE. destruct (Nat.eqb_spec k (Z.to_nat i)) as [->|N]; intros F.
        -- injection F as <-. rewrite nth_error_app2 by lia. rewrite Nat.sub_diag. cbn. now rewrite Z2Nat.id by lia.
        -- rewrite nth_error_app1; [now apply (g_entry _ G)|]. apply nth_error_Some. now rewrite (g_entry _ G _ _ F).
    + split; [reflexivity|]. split; [eexists; reflexivity|]. intros k o F. cbn [entrypoints]. rewrite NE.
      destruct (Nat.eqb_spec k (Z.to_nat i)) as [->|N]; [|exact F]. rewrite (nth_error_nth' _ None LT), E in F. discriminate.
    + eexists. split; [reflexivity|]. cbn [entrypoints]. rewrite NE, Nat.eqb_refl. reflexivity.
Qed.

Lemma find_public_spec names : forall i name found, 0 <= i ->
  match find_public names i name found with
  | Some k => (found = Some k /\ (forall j, 0 <= j < Z.of_nat (length names) -> nth (Z.to_nat j) names [] <> name)) \/
              (i <= k < i + Z.of_nat (length names) /\ nth (Z.to_nat (k - i)) names [] = name /\
               forall j, k - i < j < Z.of_nat (length names) -> nth (Z.to_nat j) names [] <> name)
  | None => found = None /\ forall j, 0 <= j < Z.of_nat (length names) -> nth (Z.to_nat j) names [] <> name
  end.
Proof.
  induction names as [|n names IH]; intros i name found I; cbn [find_public length].
  - destruct found; [left|]; (split; [reflexivity|lia]).
  - specialize (IH (i + 1) name (if name_eqb n name then Some i else found) ltac:(lia)).
    assert (STEP : (forall j, 0 <= j < Z.of_nat (length names) -> nth (Z.to_nat j) names [] <> name) ->
              forall j, 0 < j < Z.of_nat (S (length names)) -> nth (Z.to_nat j) (n :: names) [] <> name).
    { intros F j J. replace (Z.to_nat j) with (S (Z.to_nat (j - 1))) by lia. cbn [nth]. apply F. lia. }
    destruct (find_public names (i + 1) name _) as [k|].
    + destruct IH as [[F N] | (R & E & N)].
      * destruct (name_eqb n name) eqn:Q.
        -- injection F as <-. right. split; [lia|]. rewrite Z.sub_diag. split; [now apply name_eqb_eq|]. intros j J. apply (STEP N). lia.
        -- left. split; [exact F|]. intros j J. destruct (Z.eq_dec j 0) as [->|NZ].
           ++ cbn. intros ->. assert (name_eqb name name = true) by now apply name_eqb_eq. congruence.
           ++ apply (STEP N). lia.
      * right. split; [lia|]. replace (Z.to_nat (k - i)) with (S (Z.to_nat (k - (i + 1)))) by lia. cbn [nth]. split; [exact E|].
        intros j J. replace (Z.to_nat j) with (S (Z.to_nat (j - 1))) by lia. cbn [nth]. apply N. lia.
    + destruct IH as [F N]. destruct (name_eqb n name) eqn:Q; [discriminate|]. split; [exact F|]. intros j J. destruct (Z.eq_dec j 0) as [->|NZ].
      * cbn. intros ->. assert (name_eqb name name = true) by now apply name_eqb_eq. congruence.
      * apply (STEP N). lia.
Qed.

Lemma answer_spec p c : good p -> match c with ById id => 0 <= id < two32 | ByName _ => True end ->
  let '(r, q) := answer p c in good q /\ extends p q /\
    (forall i, means (publics p) c i -> exists o, r = Some o /\ nth_error (entrypoints q) (Z.to_nat i) = Some (Some o)) /\
    (r <> None -> exists i, means (publics p) c i).
Proof.
  intros G R. destruct c as [id|name]; cbn [answer].
  - unfold GetFunctionById. change 1 with (Z.ones 1) at 1. rewrite Z.land_ones by lia. change (2 ^ 1) with 2.
    destruct (Z.eqb_spec (id mod 2) 0) as [E|E].
    { split; [exact G|]. split; [apply extends_refl|]. split; [|congruence]. intros i [_ M]. cbv beta iota in M. lia. }
    destruct (Z.geb_spec (id / 2) (num_publics p)) as [F|F].
    { split; [exact G|]. split; [apply extends_refl|]. split; [|congruence]. intros i [B M]. cbv beta iota in M. unfold num_publics in F. lia. }
    pose proof (entry_spec p (id / 2) G ltac:(lia)) as S. destruct (entry p (id / 2)) as [r q]. destruct S as (G' & X & o & -> & N).
    split; [exact G'|]. split; [exact X|]. split.
    + intros i [B M]. cbv beta iota in M. exists o. split; [reflexivity|]. replace i with (id / 2) by lia. exact N.
    + intros _. exists (id / 2). unfold num_publics in F. split; [lia|]. cbv beta iota. lia.
  - unfold GetFunctionByName. pose proof (find_public_spec (publics p) 0 name None ltac:(lia)) as S.
    destruct (find_public (publics p) 0 name None) as [k|].
    + destruct S as [[S _] | (B & E & N)]; [discriminate|]. rewrite Z.sub_0_r in *.
      pose proof (entry_spec p k G ltac:(unfold num_publics; lia)) as S. destruct (entry p k) as [r q]. destruct S as (G' & X & o & -> & NE).
      split; [exact G'|]. split; [exact X|]. split.
      * intros i [B' [M1 M2]]. exists o. split; [reflexivity|].
        destruct (Z.lt_trichotomy i k) as [L|[-> |L]]; [exfalso; apply (M2 k); [lia|exact E]|exact NE|exfalso; apply (N i); [lia|exact M1]].
      * intros _. exists k. split; [lia|]. split; [exact E|exact N].
    + destruct S as [_ N]. split; [exact G|]. split; [apply extends_refl|]. split; [|congruence].
      intros i [B [M _]]. exfalso. apply (N i); [lia|exact M].
Qed.

Definition askable (c : call) : Prop := match c with ById id => 0 <= id < two32 | ByName _ => True end.
Lemma answers_spec cs : forall p, good p -> Forall askable cs ->
  let '(rs, q) := answers p cs in good q /\ extends p q /\ length rs = length cs /\
    forall k c r, nth_error cs k = Some c -> nth_error rs k = Some r ->
      (forall i, means (publics p) c i -> exists o, r = Some o /\ nth_error (entrypoints q) (Z.to_nat i) = Some (Some o)) /\
      (r <> None -> exists i, means (publics p) c i).
Proof.
  induction cs as [|c cs IH]; intros p G F; cbn [answers].
  - split; [exact G|]. split; [apply extends_refl|]. split; [reflexivity|]. intros [|k] ? ?; discriminate.
  - inversion F as [|? ? F1 F2]; subst. pose proof (answer_spec p c G F1) as S. destruct (answer p c) as [r p1]. destruct S as (G1 & X1 & M1 & M2).
    specialize (IH p1 G1 F2). destruct (answers p1 cs) as [rs p2]. destruct IH as (G2 & X2 & L & K).
    split; [exact G2|]. split; [eapply extends_trans; eauto|]. split; [cbn; congruence|].
    assert (PE : publics p1 = publics p) by apply X1. intros [|k] c0 r0 NC NR; cbn in NC, NR.
    + injection NC as <-. injection NR as <-. split; [|exact M2]. intros i M. destruct (M1 i M) as (o & E & N). exists o. split; [exact E|]. now apply X2.
    + rewrite PE in K. eapply K; eauto.
Qed.

Lemma ids_resolve names nn cs : Z.of_nat (length names) < two31 -> Forall askable cs ->
  let '(rs, p) := answers (loaded names nn) cs in length rs = length cs /\
  (forall k c r, nth_error cs k = Some c -> nth_error rs k = Some r ->
     match r with
     | Some o => exists i, means names c i /\ id_of p o = 2 * i + 1 /\ GetPublicByIndex p i = Some (id_of p o)
     | None => forall i, ~ means names c i
     end) /\
  (forall k1 k2 c1 c2 o1 o2, nth_error cs k1 = Some c1 -> nth_error cs k2 = Some c2 ->
     nth_error rs k1 = Some (Some o1) -> nth_error rs k2 = Some (Some o2) ->
     (o1 = o2 <-> exists i, means names c1 i /\ means names c2 i)).
Proof.
  intros L F. pose proof (answers_spec cs (loaded names nn) (good_loaded names nn L) F) as S.
  destruct (answers (loaded names nn) cs) as [rs p]. destruct S as (G & X & LEN & K). cbn [publics loaded] in K.
  assert (PE : publics p = names) by apply X.
  assert (OBJ : forall i o, 0 <= i < Z.of_nat (length names) -> nth_error (entrypoints p) (Z.to_nat i) = Some (Some o) ->
            nth_error (objects p) o = Some (mkInvoker (2 * i + 1) i)).
  { intros i o B N. rewrite (g_entry _ G _ _ N). rewrite Z2Nat.id by lia. rewrite make_id_eq by lia. reflexivity. }
  split; [exact LEN|]. split.
  - intros k c r NC NR. destruct (K k c r NC NR) as [A B]. destruct r as [o|].
    + destruct (B ltac:(discriminate)) as (i & M). destruct (A i M) as (o' & E & N). injection E as <-. exists i. split; [exact M|].
      assert (ID : id_of p o = 2 * i + 1) by (unfold id_of; rewrite (nth_error_nth _ _ _ (OBJ i o (proj1 M) N)); reflexivity).
      split; [exact ID|]. rewrite ID. unfold GetPublicByIndex, num_publics. rewrite PE. destruct M as [M _].
      replace (i >=? Z.of_nat (length names)) with false by lia. rewrite make_id_eq by lia. reflexivity.
    + intros i M. destruct (A i M) as (o & E & _). discriminate.
  - intros k1 k2 c1 c2 o1 o2 C1 C2 R1 R2. destruct (K _ _ _ C1 R1) as [A1 B1]. destruct (K _ _ _ C2 R2) as [A2 B2].
    destruct (B1 ltac:(discriminate)) as (i1 & M1). destruct (B2 ltac:(discriminate)) as (i2 & M2).
    destruct (A1 i1 M1) as (o1' & E1 & N1). injection E1 as <-. destruct (A2 i2 M2) as (o2' & E2 & N2). injection E2 as <-.
    pose proof (OBJ i1 o1 (proj1 M1) N1) as Q1. pose proof (OBJ i2 o2 (proj1 M2) N2) as Q2. split.
    + intros ->. assert (i1 = i2) as -> by congruence. eauto.
    + intros (i & P1 & P2). destruct (A1 i P1) as (x & X1 & Y1). destruct (A2 i P2) as (y & X2 & Y2). congruence.
Qed.

(* ---- Natives ---- *)
Lemma flags_test fl : (Z.land fl (Z.lor SP_NTVFLAG_OPTIONAL SP_NTVFLAG_EPHEMERAL) =? 0) = true <-> ~ optional_or_ephemeral fl.
Proof.
  unfold optional_or_ephemeral. change (Z.lor SP_NTVFLAG_OPTIONAL SP_NTVFLAG_EPHEMERAL) with (Z.ones 2). rewrite Z.eqb_eq. split.
  - intros E [H|H]; [assert (T : Z.testbit (Z.land fl (Z.ones 2)) 0 = true) by (rewrite Z.land_spec, H; reflexivity)
                    |assert (T : Z.testbit (Z.land fl (Z.ones 2)) 1 = true) by (rewrite Z.land_spec, H; reflexivity)];
      rewrite E in T; discriminate.
  - intros N. apply Z.bits_inj'. intros k K. rewrite Z.land_spec, Z.bits_0. destruct (Z.eq_dec k 0) as [->|]; [|destruct (Z.eq_dec k 1) as [->|]].
    + destruct (Z.testbit fl 0); [exfalso; auto|reflexivity].
    + destruct (Z.testbit fl 1); [exfalso; auto|reflexivity].
    + rewrite Z.ones_spec_high by lia. apply andb_false_r.
Qed.
Lemma opt_dec fl : optional_or_ephemeral fl \/ ~ optional_or_ephemeral fl.
Proof. unfold optional_or_ephemeral. destruct (Z.testbit fl 0), (Z.testbit fl 1); intuition congruence. Qed.

Lemma binding_fun k h : forall i f fl f' fl', binding k h i f fl -> binding k h i f' fl' -> f' = f /\ fl' = fl.
Proof.
  induction h as [|r h IH]; intros i f fl f' fl' B B'.
  - inversion B; inversion B'; subst; auto.
  - inversion B as [|? ? ? ? ? B1 N1|? ? ? ? B1 O1|? ? ? ? B1 R1|? ? ? ? B1 R1 O1]; subst;
    inversion B' as [|? ? ? ? ? B2 N2|? ? ? ? B2 O2|? ? ? ? B2 R2|? ? ? ? B2 R2 O2]; subst; try congruence;
    destruct (IH _ _ _ _ _ B1 B2) as [E1 E2]; subst; auto; try lia;
    try (destruct O1; try congruence; tauto); try (destruct O2; try congruence; tauto).
Qed.

(* The state of native [i] is what the history says. *)
Definition holds_binding (p : plugin) (h : list request) : Prop :=
  forall i, 0 <= i -> exists f fl, binding (num_natives p) h i f fl /\ call_native p i = f /\
    (i < num_natives p -> let n := nth (Z.to_nat i) (natives p) (mkNative None false 0 0) in
       n_flags n = fl /\ n_fn n = f /\ n_bound n = match f with Some _ => true | None => false end).
Lemma holds_loaded names nn : holds_binding (loaded names nn) [].
Proof.
  intros i I. exists None, 0. split; [constructor|].
  assert (E : nth (Z.to_nat i) (natives (loaded names nn)) (mkNative None false 0 0) = mkNative None false 0 0) by (cbn [natives loaded]; apply nth_repeat).
  unfold call_native. rewrite E. auto.
Qed.
Lemma bind_step p h r : holds_binding p h -> 0 <= r_index r ->
  let '(x, q) := UpdateNativeBinding p (r_index r) (r_fn r) (r_flags r) (r_user r) in
  num_natives q = num_natives p /\ reply (num_natives p) h r x /\ holds_binding q (r :: h).
Proof.
  intros HB I. destruct (HB (r_index r) I) as (f & fl & B & C & D). unfold UpdateNativeBinding.
  destruct (Z.geb_spec (r_index r) (num_natives p)) as [G|G].
  - split; [reflexivity|]. split; [exact G|]. intros i II. destruct (HB i II) as (f' & fl' & B' & C' & D').
    exists f', fl'. destruct (Z.eq_dec (r_index r) i) as [<-|N]; [|split; [apply b_other; auto|auto]].
    destruct (binding_fun _ _ _ _ _ _ _ B B') as [-> ->]. split; [apply b_range; auto|auto].
  - destruct (D ltac:(lia)) as (D1 & D2 & D3). rewrite D3, D1.
    destruct ((match f with Some _ => true | None => false end) && (Z.land fl (Z.lor SP_NTVFLAG_OPTIONAL SP_NTVFLAG_EPHEMERAL) =? 0)) eqn:T.
    + rewrite andb_true_iff, flags_test in T. destruct T as [T NO]. destruct f as [f|]; [|discriminate].
      split; [reflexivity|]. split; [split; [lia|eauto]|]. intros i II. destruct (HB i II) as (f' & fl' & B' & C' & D').
      exists f', fl'. destruct (Z.eq_dec (r_index r) i) as [<-|N]; [|split; [apply b_other; auto|auto]].
      destruct (binding_fun _ _ _ _ _ _ _ B B') as [-> ->]. split; [apply b_refused; auto|auto].
    + assert (OK : f = None \/ optional_or_ephemeral fl).
      { destruct f; [|auto]. right. destruct (opt_dec fl) as [|NO]; auto. apply flags_test in NO. rewrite NO in T. discriminate. }
      assert (NN : forall q, natives q = set_nth (natives p) (Z.to_nat (r_index r)) (mkNative (r_fn r) (match r_fn r with Some _ => true | None => false end) (r_flags r) (r_user r)) ->
                num_natives q = num_natives p) by (intros q Q; unfold num_natives; rewrite Q, set_nth_length; reflexivity).
      match goal with |- num_natives ?q = _ /\ _ => specialize (NN q eq_refl); rewrite NN end.
      split; [reflexivity|]. split; [split; [lia|eauto]|]. intros i II. rewrite NN. unfold call_native. cbn [natives].
      assert (LT : (Z.to_nat (r_index r) < length (natives p))%nat) by (unfold num_natives in G; lia).
      destruct (Z.eq_dec (r_index r) i) as [<-|N].
      * exists (r_fn r), (r_flags r). split; [eapply b_taken; eauto; lia|]. rewrite set_nth_same by exact LT. cbn. split; [destruct (r_fn r); reflexivity|auto].
      * destruct (HB i II) as (f' & fl' & B' & C' & D'). exists f', fl'. split; [apply b_other; auto|].
        rewrite set_nth_other by lia. split; [exact C'|exact D'].
Qed.
Lemma bind_history rs : forall p h, holds_binding p h -> Forall (fun r => 0 <= r_index r) rs ->
  let '(xs, q) := bind_all p rs in num_natives q = num_natives p /\ holds_binding q (rev rs ++ h) /\ length xs = length rs /\
    forall k r x, nth_error rs k = Some r -> nth_error xs k = Some x -> reply (num_natives p) (rev (firstn k rs) ++ h) r x.
Proof.
  induction rs as [|r rs IH]; intros p h HB F; cbn [bind_all].
  - split; [reflexivity|]. split; [exact HB|]. split; [reflexivity|]. intros [|k] ? ?; discriminate.
  - inversion F as [|? ? F1 F2]; subst. pose proof (bind_step p h r HB F1) as S.
    destruct (UpdateNativeBinding p (r_index r) (r_fn r) (r_flags r) (r_user r)) as [x p1]. destruct S as (N1 & R1 & HB1).
    specialize (IH p1 (r :: h) HB1 F2). destruct (bind_all p1 rs) as [xs p2]. destruct IH as (N2 & HB2 & L & K).
    split; [congruence|]. split; [cbn [rev]; rewrite <- app_assoc; exact HB2|]. split; [cbn; congruence|].
    intros [|k] r0 x0 A B; cbn in A, B.
    + injection A as <-. injection B as <-. exact R1.
    + cbn [firstn rev]. rewrite <- app_assoc. rewrite N1 in K. exact (K k r0 x0 A B).
Qed.
Lemma natives_bound names nn rs : Forall (fun r => 0 <= r_index r) rs ->
  let '(xs, p) := bind_all (loaded names nn) rs in let n := Z.of_nat nn in length xs = length rs /\
  (forall k r x, nth_error rs k = Some r -> nth_error xs k = Some x -> reply n (rev (firstn k rs)) r x) /\
  (forall i, 0 <= i -> exists fl, binding n (rev rs) i (call_native p i) fl).
Proof.
  intros F. pose proof (bind_history rs (loaded names nn) [] (holds_loaded names nn) F) as S.
  destruct (bind_all (loaded names nn) rs) as [xs p]. destruct S as (N & HB & L & K).
  assert (NN : num_natives (loaded names nn) = Z.of_nat nn) by (unfold num_natives; cbn; now rewrite repeat_length).
  cbv zeta. rewrite NN in *. split; [exact L|]. split.
  - intros k r x A B. specialize (K k r x A B). now rewrite app_nil_r in K.
  - intros i I. destruct (HB i I) as (f & fl & B & C & _). exists fl. rewrite C. rewrite N, app_nil_r in B. exact B.
Qed.
