From Coq Require Import ZArith List Bool Lia.
From Verif Require Import Liv_Model Liv_Spec.
Import ListNotations.
Local Open Scope Z_scope.

Lemma seen_in_In : forall n l, seen_in n l = true <-> In n l.
Proof.
  intros n l. unfold seen_in. rewrite existsb_exists. split.
  - intros (x & I & E). apply Z.eqb_eq in E. subst x. exact I.
  - intros I. exists n. split; [exact I|apply Z.eqb_refl].
Qed.
Lemma seen_in_not : forall n l, seen_in n l = false <-> ~ In n l.
Proof.
  intros n l. rewrite <- seen_in_In. destruct (seen_in n l); split; congruence.
Qed.

Lemma add_reference_In : forall refs o x, In x (add_reference refs o) <-> In x refs \/ x = o.
Proof.
  intros refs o x. unfold add_reference. fold (seen_in o refs). destruct (seen_in o refs) eqn:E.
  - apply seen_in_In in E. split; [auto|]. intros [H| ->]; auto.
  - cbn. split; intros [H|H]; auto.
Qed.

Lemma fold_reference_In : forall l refs x, In x (fold_left add_reference l refs) <-> In x refs \/ In x l.
Proof.
  induction l as [|o l IH]; intros refs x; cbn [fold_left].
  - cbn. tauto.
  - rewrite IH, add_reference_In. cbn. intuition congruence.
Qed.

Lemma references_In : forall f x, In x (references f) <-> exists l, f_body f = Some l /\ In x l.
Proof.
  intros f x. unfold references. destruct (f_body f) as [l|].
  - rewrite fold_reference_In. cbn. split.
    + intros [[]|H]. eauto.
    + intros (l' & E & I). injection E as <-. auto.
  - split; [intros []|]. intros (l & E & _). discriminate.
Qed.

Lemma lookup_In : forall p f, distinct p -> In f p -> lookup p (f_id f) = Some f.
Proof.
  unfold distinct, lookup. induction p as [|g p IH]; intros f D I; [destruct I|].
  cbn [find map] in *. inversion D as [|? ? NI D']; subst.
  destruct I as [-> |I].
  - now rewrite Z.eqb_refl.
  - destruct (f_id g =? f_id f) eqn:E.
    + apply Z.eqb_eq in E. exfalso. apply NI. rewrite E. apply in_map. exact I.
    + auto.
Qed.

Lemma lookup_some : forall p n f, lookup p n = Some f -> In f p /\ f_id f = n.
Proof.
  intros p n f H. unfold lookup in H. apply find_some in H as [I E]. apply Z.eqb_eq in E. auto.
Qed.

Lemma refers_to_uses : forall p n m, distinct p -> (In m (refers_to p n) <-> uses p n m).
Proof.
  intros p n m D. unfold refers_to, uses. split.
  - destruct (lookup p n) as [f|] eqn:L; [|intros []]. intros H.
    apply lookup_some in L as [I E]. apply references_In in H as (l & B & IM). eauto 10.
  - intros (f & l & I & <- & B & IM). rewrite (lookup_In _ _ D I). apply references_In. eauto.
Qed.

(* The inner loop. *)
Lemma visit_spec : forall others marked seen work marked' seen' work',
  visit others marked seen work = (marked', seen', work') ->
  (forall x, In x marked' <-> In x marked \/ In x others) /\
  (forall x, In x seen' <-> In x seen \/ In x others) /\
  (forall x, In x work' <-> In x work \/ In x others /\ ~ In x seen) /\
  exists fresh, NoDup fresh /\ work' = fresh ++ work /\ seen' = fresh ++ seen /\
    (forall x, In x fresh <-> In x others /\ ~ In x seen).
Proof.
  induction others as [|o others IH]; intros marked seen work marked' seen' work' H; cbn [visit] in H.
  - injection H as <- <- <-.
    split; [cbn; tauto|]. split; [cbn; tauto|]. split; [cbn; tauto|].
    exists []. split; [constructor|]. split; [reflexivity|]. split; [reflexivity|]. cbn; tauto.
  - destruct (seen_in o seen) eqn:SO.
    + apply seen_in_In in SO. apply IH in H as (HM & HS & HW & fresh & ND & EW & ES & HF).
      split; [|split; [|split]].
      * intros x. rewrite HM. cbn. intuition congruence.
      * intros x. rewrite HS. cbn. intuition (subst; auto).
      * intros x. rewrite HW. cbn. intuition (subst; tauto).
      * exists fresh. do 3 (split; [assumption|]). intros x. rewrite HF. cbn. intuition (subst; tauto).
    + apply seen_in_not in SO. apply IH in H as (HM & HS & HW & fresh & ND & EW & ES & HF).
      split; [|split; [|split]].
      * intros x. rewrite HM. cbn. intuition congruence.
      * intros x. rewrite HS. cbn. intuition congruence.
      * intros x. rewrite HW. cbn. destruct (Z.eq_dec o x) as [->|NE]; tauto.
      * exists (fresh ++ [o]). split; [|split; [|split]].
        -- apply NoDup_rev in ND. rewrite <- (rev_involutive (fresh ++ [o])). apply NoDup_rev.
           rewrite rev_app_distr. cbn. constructor; [|exact ND].
           rewrite <- in_rev, HF. cbn. tauto.
        -- rewrite <- app_assoc. exact EW.
        -- rewrite <- app_assoc. exact ES.
        -- intros x. rewrite in_app_iff, HF. cbn. destruct (Z.eq_dec o x) as [->|NE]; tauto.
Qed.

(* What holds while the functions are traversed. *)
Record inv (p : program) (roots marked seen work : list Z) : Prop := {
  iv_roots : forall x, In x roots -> In x marked;
  iv_seen : forall x, In x seen <-> In x marked;
  iv_work : forall x, In x work -> In x seen;
  iv_reach : forall x, In x marked -> exists r, In r roots /\ reaches p r x;
  iv_closed : forall x, In x seen -> ~ In x work -> forall y, uses p x y -> In y seen
}.

Lemma reaches_snoc : forall p n m k, reaches p n m -> uses p m k -> reaches p n k.
Proof.
  intros p n m k H U. induction H as [n|n a b U1 _ IH].
  - econstructor; [exact U|constructor].
  - econstructor; [exact U1|]. auto.
Qed.

Lemma inv_step : forall p roots marked seen n work marked' seen' work',
  distinct p -> inv p roots marked seen (n :: work) ->
  visit (refers_to p n) marked seen work = (marked', seen', work') ->
  inv p roots marked' seen' work'.
Proof.
  intros p roots marked seen n work marked' seen' work' D V H.
  apply visit_spec in H as (HM & HS & HW & _). destruct V as [V1 V2 V3 V4 V5].
  split.
  - intros x I. apply HM. auto.
  - intros x. rewrite HS, HM, V2. tauto.
  - intros x I. apply HW in I as [I|[I _]]; apply HS; auto. left. apply V3. now right.
  - intros x I. apply HM in I as [I|I]; [auto|].
    apply refers_to_uses in I; [|exact D].
    destruct (V4 n) as (r & IR & R); [apply V2, V3; now left|].
    exists r. split; [exact IR|]. eapply reaches_snoc; eassumption.
  - intros x I NW y U. apply HS.
    apply HS in I as [I|I].
    + destruct (Z.eq_dec x n) as [->|NE].
      * right. apply refers_to_uses; assumption.
      * destruct (in_dec Z.eq_dec x work) as [IW|IW].
        -- exfalso. apply NW. apply HW. auto.
        -- left. apply (V5 x I); [|exact U]. intros [E|E]; congruence.
    + destruct (in_dec Z.eq_dec x seen) as [IS|IS].
      * destruct (Z.eq_dec x n) as [->|NE].
        -- right. apply refers_to_uses; assumption.
        -- destruct (in_dec Z.eq_dec x work) as [IW|IW].
           ++ exfalso. apply NW. apply HW. auto.
           ++ left. apply (V5 x IS); [|exact U]. intros [E|E]; congruence.
      * exfalso. apply NW. apply HW. auto.
Qed.

Lemma traverse_ok : forall fuel p roots marked seen work r,
  distinct p -> inv p roots marked seen work ->
  traverse fuel p marked seen work = Some r ->
  forall x, In x r <-> exists o, In o roots /\ reaches p o x.
Proof.
  induction fuel as [|fuel IH]; intros p roots marked seen work r D V H; [discriminate|].
  cbn [traverse] in H. destruct work as [|n work].
  - injection H as <-. intros x. destruct V as [V1 V2 V3 V4 V5]. split; [apply V4|].
    intros (o & I & R). apply V2. apply V1, V2 in I.
    induction R as [n|n m k U R IHR]; [exact I|]. apply IHR.
    apply (V5 n I); [intros []|exact U].
  - destruct (visit (refers_to p n) marked seen work) as [[marked' seen'] work'] eqn:VI.
    eapply IH; [exact D| |exact H]. eapply inv_step; eassumption.
Qed.

Lemma inv_init : forall p roots, inv p roots (rev roots) (rev roots) (rev roots).
Proof.
  intros p roots. split.
  - intros x I. now apply in_rev in I.
  - tauto.
  - auto.
  - intros x I. apply in_rev in I. exists x. split; [exact I|constructor].
  - intros x I N. contradiction.
Qed.

Lemma deduce_reaches : forall fuel p roots r, distinct p -> deduce fuel p roots = Some r ->
  forall x, In x r <-> exists o, In o roots /\ reaches p o x.
Proof.
  intros fuel p roots r D H. unfold deduce in H. eapply traverse_ok; [exact D|apply inv_init|exact H].
Qed.

(* The traversal ends. *)
Lemma uses_mentioned : forall p n m, uses p n m -> In m (mentioned p).
Proof.
  intros p n m (f & l & I & _ & B & IM). unfold mentioned. apply in_or_app. right.
  apply in_flat_map. exists f. split; [exact I|]. now rewrite B.
Qed.

Lemma traverse_ends : forall fuel p marked seen work,
  distinct p -> NoDup seen -> (forall x, In x seen -> In x (mentioned p)) ->
  (length work + (length (mentioned p) - length seen) < fuel)%nat ->
  exists r, traverse fuel p marked seen work = Some r.
Proof.
  induction fuel as [|fuel IH]; intros p marked seen work D ND SM L; [lia|].
  cbn [traverse]. destruct work as [|n work]; [eauto|].
  destruct (visit (refers_to p n) marked seen work) as [[marked' seen'] work'] eqn:VI.
  apply visit_spec in VI as (_ & HS & _ & fresh & NF & -> & -> & HF).
  assert (ND' : NoDup (fresh ++ seen)).
  { clear -ND NF HF. assert (X : forall y, In y fresh -> ~ In y seen) by (intros y I; apply HF in I; tauto).
    clear HF. induction fresh as [|a fresh IH]; [exact ND|]. inversion NF; subst. cbn. constructor.
    - rewrite in_app_iff. intros [I|I]; [contradiction|]. exact (X a (or_introl eq_refl) I).
    - apply IH; [assumption|]. intros y I. apply X. now right. }
  assert (SM' : forall x, In x (fresh ++ seen) -> In x (mentioned p)).
  { intros x I. apply in_app_or in I as [I|I]; [|auto].
    apply HF in I as [I _]. apply refers_to_uses in I; [|exact D]. eapply uses_mentioned; exact I. }
  pose proof (NoDup_incl_length ND' SM') as LE. rewrite app_length in LE.
  apply IH; auto. rewrite !app_length. cbn [length] in L. lia.
Qed.

Lemma nodup_filter_ids : forall p (g : func -> bool), NoDup (map f_id p) -> NoDup (map f_id (filter g p)).
Proof.
  induction p as [|f p IH]; intros g D; cbn [filter map] in *; [constructor|].
  inversion D as [|? ? NI D']; subst. destruct (g f); [|auto].
  cbn. constructor; [|auto]. intros I. apply NI.
  apply in_map_iff in I as (h & E & I). apply filter_In in I as [I _]. rewrite <- E. now apply in_map.
Qed.

Lemma deduce_ends : forall p g, distinct p ->
  exists r, deduce (enough p) p (map f_id (filter g p)) = Some r.
Proof.
  intros p g D. unfold deduce.
  assert (SM : forall x, In x (rev (map f_id (filter g p))) -> In x (mentioned p)).
  { intros x I. apply in_rev in I. unfold mentioned. apply in_or_app. left.
    apply in_map_iff in I as (h & E & I). apply filter_In in I as [I _]. rewrite <- E. now apply in_map. }
  assert (ND : NoDup (rev (map f_id (filter g p)))) by (apply NoDup_rev, nodup_filter_ids; exact D).
  apply traverse_ends; auto. pose proof (NoDup_incl_length ND SM) as LE. unfold enough. lia.
Qed.

Lemma publics_entry : forall p n, In n (publics p) <-> entry p n.
Proof.
  intros p n. unfold publics, entry. rewrite in_map_iff. split.
  - intros (f & E & I). apply filter_In in I as [I B]. apply andb_prop in B as [B1 B2].
    destruct (f_body f) as [l|] eqn:BD; [|discriminate]. exists f, l. auto.
  - intros (f & l & I & E & P & B). exists f. split; [exact E|]. apply filter_In. split; [exact I|].
    now rewrite P, B.
Qed.

Lemma maybe_used_in_case : forall p n, In n (maybe_used p) <-> in_case p n.
Proof.
  intros p n. unfold maybe_used, in_case. rewrite in_map_iff. split.
  - intros (f & E & I). apply filter_In in I as [I B]. apply andb_prop in B as [B1 B2].
    destruct (f_body f) as [l|] eqn:BD; [|discriminate]. exists f, l. apply orb_prop in B1. auto.
  - intros (f & l & I & E & P & B). exists f. split; [exact E|]. apply filter_In. split; [exact I|].
    rewrite B, andb_true_r. now apply orb_true_intro.
Qed.

Lemma live_needed : forall fuel p r, distinct p -> live fuel p = Some r ->
  forall n, In n r <-> needed p n.
Proof.
  intros fuel p r D H n. unfold live in H. rewrite (deduce_reaches _ _ _ _ D H n). unfold needed.
  split; intros (o & I & R); exists o; (split; [|exact R]); now apply publics_entry.
Qed.

Lemma spared_kept : forall fuel p r, distinct p -> spared fuel p = Some r ->
  forall n, In n r <-> kept p n.
Proof.
  intros fuel p r D H n. unfold spared in H. rewrite (deduce_reaches _ _ _ _ D H n). unfold kept.
  split; intros (o & I & R); exists o; (split; [|exact R]); now apply maybe_used_in_case.
Qed.

Lemma both_end : forall p, distinct p ->
  exists a s, live (enough p) p = Some a /\ spared (enough p) p = Some s.
Proof.
  intros p D. destruct (deduce_ends p (fun f => f_public f && match f_body f with Some _ => true | None => false end) D) as [a A].
  destruct (deduce_ends p (fun f => (f_member f || f_stock f) && match f_body f with Some _ => true | None => false end) D) as [s SS].
  exists a, s. split; assumption.
Qed.

(* Code generation. *)
Lemma emit_ok : forall alive p q, distinct p ->
  (forall n m, In n alive -> uses p n m -> In m alive) ->
  (forall f, In f q -> In f p) ->
  emit alive q = Some (map f_id (filter (fun f => seen_in (f_id f) alive
                        && match f_body f with Some _ => true | None => false end) q)).
Proof.
  intros alive p q D C. induction q as [|f q IH]; intros S; [reflexivity|].
  cbn [emit filter]. specialize (IH (fun g I => S g (or_intror I))).
  destruct (seen_in (f_id f) alive) eqn:E; cbn [negb andb]; [|exact IH].
  destruct (f_body f) as [l|] eqn:B; [|exact IH].
  assert (F : forallb (fun u => seen_in u alive) l = true).
  { apply forallb_forall. intros u I. apply seen_in_In. apply seen_in_In in E.
    apply (C (f_id f) u E). exists f, l. split; [apply S; now left|]. auto. }
  rewrite F, IH. reflexivity.
Qed.

Lemma needed_uses : forall p n m, needed p n -> uses p n m -> needed p m.
Proof. intros p n m (r & I & R) U. exists r. split; [exact I|]. eapply reaches_snoc; eassumption. Qed.

Lemma emit_needed : forall fuel p alive, distinct p -> live fuel p = Some alive ->
  exists out, emit alive p = Some out /\ NoDup out /\
    forall n, In n out <-> needed p n /\ exists f l, In f p /\ f_id f = n /\ f_body f = Some l.
Proof.
  intros fuel p alive D H. pose proof (live_needed _ _ _ D H) as L.
  eexists. split.
  - apply (emit_ok alive p p D); [|auto]. intros n m I U. apply L. apply L in I. eapply needed_uses; eassumption.
  - split; [apply nodup_filter_ids; exact D|].
    intros n. rewrite in_map_iff. split.
    + intros (f & E & I). apply filter_In in I as [I B]. apply andb_prop in B as [B1 B2].
      apply seen_in_In in B1. apply L in B1. rewrite E in B1. split; [exact B1|].
      destruct (f_body f) as [l|] eqn:BD; [|discriminate]. exists f, l. auto.
    + intros (N & f & l & I & E & B). exists f. split; [exact E|]. apply filter_In. split; [exact I|].
      rewrite B, andb_true_r. apply seen_in_In. apply L. rewrite E. exact N.
Qed.

Lemma unused_spec : forall fuel p alive spare f, distinct p ->
  live fuel p = Some alive -> spared fuel p = Some spare -> In f p ->
  (unused alive spare f = true <->
   (exists l, f_body f = Some l) /\ f_native f = false /\ f_stock f = false /\ f_public f = false /\
   ~ needed p (f_id f) /\ ~ kept p (f_id f)).
Proof.
  intros fuel p alive spare f D L SP I.
  rewrite <- (live_needed _ _ _ D L), <- (spared_kept _ _ _ D SP). unfold unused.
  rewrite <- !seen_in_In.
  destruct (seen_in (f_id f) spare), (seen_in (f_id f) alive), (f_native f), (f_stock f), (f_public f),
    (f_body f) as [l|]; cbn; split; intros H; try discriminate H; try reflexivity;
    try (destruct H as ([? ?] & ? & ? & ? & ? & ?); congruence).
  repeat split; try discriminate; eauto.
Qed.
