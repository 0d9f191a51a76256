(* From emission histories to code in memory: every label of the generated code is placed, once, and the patched code
   is laid out as [laid] says. *)
From Verif Require Import Base Base_Proofs Rt_Model Interp_Model Fold_Model Gen_Model Gen_Spec Gen_Proofs.
From Verif Require Label_Model Label_Spec Label_Proofs.
From Coq Require Import ZifyBool Lia.
Ltac Zify.zify_post_hook ::= idtac.
Notation items := Label_Spec.items.
Notation items_of := Label_Spec.items_of.
Notation placed := Label_Spec.placed.
Notation well_used := Label_Spec.well_used.

Lemma size_items g : size g = Z.of_nat (length (items g)).
Proof.
  unfold Label_Spec.items. induction g as [|o g IH]; [reflexivity|]. cbn [flat_map]. rewrite app_length.
  destruct o; cbn [size Label_Spec.items_of length]; rewrite ?map_length; lia.
Qed.
Lemma items_app g1 g2 : items (g1 ++ g2) = items g1 ++ items g2.
Proof. apply flat_map_app. Qed.

Lemma placed_app h1 : forall n h2 l, placed n (h1 ++ h2) l =
  match placed n h1 l with Some a => Some a | None => placed (n + length (items h1)) h2 l end.
Proof.
  unfold Label_Spec.items. induction h1 as [|o h1 IH]; intros n h2 l.
  - cbn [app Label_Spec.placed flat_map length]. now rewrite Nat.add_0_r.
  - cbn [app Label_Spec.placed flat_map]. rewrite IH, app_length, Nat.add_assoc.
    destruct o; try reflexivity; destruct (Nat.eqb l _); reflexivity.
Qed.

Lemma laid_link h s : well_used h -> closed h -> Label_Model.arun h Label_Model.fresh = Label_Model.Done s ->
  laid (Label_Model.code s) (resolve h) 0 h /\ size h = Z.of_nat (length (Label_Model.code s)).
Proof.
  intros W C R. destruct (Label_Proofs.patched h W) as (s' & R' & Len & Cells). rewrite R in R'. injection R' as <-.
  split; [|rewrite size_items; lia].
  assert (G : forall after before, h = before ++ after ->
    laid (Label_Model.code s) (resolve h) (Z.of_nat (length (items before))) after).
  2:{ exact (G h [] eq_refl). }
  assert (CELL : forall before after i e, h = before ++ after -> nth_error (items after) i = Some e ->
    Label_Spec.right_cell h e (cell_at (Label_Model.code s) (Z.of_nat (length (items before)) + Z.of_nat i))).
  { intros before after i e E N. unfold cell_at. replace (Z.of_nat (length (items before)) + Z.of_nat i <? 0) with false by lia. replace (Z.to_nat (Z.of_nat (length (items before)) + Z.of_nat i)) with (length (items before) + i)%nat by lia.
    apply Cells. rewrite E, items_app, nth_error_app2 by lia. now replace (length (items before) + i - length (items before))%nat with i by lia. }
  assert (REF : forall l v, In (Label_Spec.Ref l) (items h) -> Label_Spec.right_cell h (Label_Spec.Ref l) v -> v = wrap32 (resolve h l)).
  { intros l v I Rc. cbn [Label_Spec.right_cell] in Rc. unfold resolve. specialize (C l I). destruct (placed 0 h l); [exact Rc|contradiction]. }
  induction after as [|o after IH]; intros before E; [exact Logic.I|].
  specialize (IH (before ++ [o])). rewrite <- app_assoc in IH. specialize (IH E).
  rewrite items_app, app_length in IH. cbn [Label_Spec.items flat_map] in IH. rewrite app_nil_r in IH.
  assert (CELL0 := fun i e => CELL before (o :: after) i e E). clear CELL.
  assert (INO : forall e, In e (items_of o) -> In e (items h)).
  { intros e I. rewrite E, items_app. apply in_or_app. right. unfold Label_Spec.items. cbn [flat_map]. apply in_or_app. now left. }
  assert (KN : forall k, Z.of_nat (length (items before) + k) = Z.of_nat (length (items before)) + Z.of_nat k) by (intros; lia).
  unfold Label_Spec.items in CELL0. cbn [flat_map] in CELL0. rewrite KN in IH.
  fold (items before) in CELL0.
  assert (K0 : forall x, x + Z.of_nat 0 = x) by (intros; lia).
  assert (C0 := fun e => CELL0 0%nat e). rewrite K0 in C0. assert (C1 := fun e => CELL0 1%nat e). assert (C2 := fun e => CELL0 2%nat e).
  change (Z.of_nat 1) with 1 in C1. change (Z.of_nat 2) with 2 in C2.
  destruct o; cbn [laid Label_Spec.items_of length app nth_error] in *.
  - rewrite map_length in IH. split; [|exact IH]. intros i I.
    apply (CELL0 i (Label_Spec.Word (nth i cells 0))). rewrite nth_error_app1 by (rewrite map_length; lia).
    rewrite nth_error_map, (nth_error_nth' cells 0 I). reflexivity.
  - split; [exact (C0 _ eq_refl)|]. split; [|exact IH]. apply REF; [apply INO; cbn [In]; auto|exact (C1 _ eq_refl)].
  - split; [exact (C0 _ eq_refl)|exact IH].
  - split; [exact (C0 _ eq_refl)|]. split; [exact (C1 _ eq_refl)|]. split; [|exact IH]. apply REF; [apply INO; cbn [In]; auto|exact (C2 _ eq_refl)].
  - split; [exact (C0 _ eq_refl)|]. split; [|exact IH]. apply REF; [apply INO; cbn [In]; auto|exact (C1 _ eq_refl)].
  - split; [exact (C0 _ eq_refl)|]. split; [|split; [exact (C2 _ eq_refl)|exact IH]]. apply REF; [apply INO; cbn [In]; auto|exact (C1 _ eq_refl)].
  - rewrite Z.add_0_r in IH. split; [|exact IH]. pose proof (proj1 W before _ after E) as Al. cbn [Label_Spec.allowed] in Al.
    unfold resolve. rewrite E, placed_app, Al. cbn [Label_Spec.placed]. now rewrite Nat.eqb_refl.
  - rewrite Z.add_0_r in IH. split; [|exact IH]. pose proof (proj1 W before _ after E) as [Al _].
    unfold resolve. rewrite E, placed_app, Al. cbn [Label_Spec.placed]. now rewrite Nat.eqb_refl.
  - rewrite Z.add_0_r in IH. exact IH.
Qed.

(* ---- The labels of a piece of code ---- *)
Definition binds_of (o : aop) : list nat := match o with Label_Model.Bind l => [l] | Label_Model.BindTo l _ => [l] | _ => [] end.
Definition binds (g : list aop) : list nat := flat_map binds_of g.
Definition refs (g : list aop) : list nat := flat_map (fun i => match i with Label_Spec.Ref l => [l] | _ => [] end) (items g).
Lemma binds_app g1 g2 : binds (g1 ++ g2) = binds g1 ++ binds g2. Proof. apply flat_map_app. Qed.
Lemma refs_app g1 g2 : refs (g1 ++ g2) = refs g1 ++ refs g2.
Proof. unfold refs. now rewrite items_app, flat_map_app. Qed.
Lemma in_refs g l : In l (refs g) <-> In (Label_Spec.Ref l) (items g).
Proof.
  unfold refs. rewrite in_flat_map. split.
  - intros (i & I & X). destruct i; cbn [In] in X; try contradiction. destruct X as [<-|[]]. exact I.
  - intros I. exists (Label_Spec.Ref l). cbn [In]. auto.
Qed.
Lemma placed_binds l g : forall n, placed n g l <> None <-> In l (binds g).
Proof.
  unfold binds. induction g as [|o g IH]; intros n; [cbn; tauto|]. cbn [Label_Spec.placed flat_map]. rewrite in_app_iff.
  specialize (IH (n + length (items_of o))%nat). destruct o; cbn [binds_of In]; try (rewrite IH; tauto).
  - destruct (Nat.eqb_spec l l0) as [->|N]; [split; [auto|discriminate]|]. rewrite IH. split; [auto|]. intros [[X|[]]|X]; congruence.
  - destruct (Nat.eqb_spec l l0) as [->|N]; [split; [auto|discriminate]|]. rewrite IH. split; [auto|]. intros [[X|[]]|X]; congruence.
Qed.

(* Operations that place no data and bind no label to anything but the current place. *)
Definition plain (o : aop) : Prop :=
  match o with Label_Model.EmitData _ _ | Label_Model.BindData _ _ | Label_Model.BindTo _ _ => False | _ => True end.
(* [g] places labels satisfying [R], each once, and refers to its own, to globals' and to those in [T]. *)
Section Labels.
Variable glab : nat -> nat.
Variable ga : nat -> Z.
Definition tidy (g : list aop) (R T : nat -> Prop) : Prop :=
  (forall l, In l (binds g) -> R l) /\ NoDup (binds g) /\
  (forall l, In l (refs g) -> (exists x, l = glab x) \/ In l (binds g) \/ T l) /\ (forall o, In o g -> plain o).
Lemma nodup_app (a b : list nat) : NoDup a -> NoDup b -> (forall x, In x a -> In x b -> False) -> NoDup (a ++ b).
Proof.
  induction a as [|x a IH]; intros A B D; [exact B|]. inversion_clear A as [|? ? N A']. cbn [app]. constructor.
  - rewrite in_app_iff. intros [X|X]; [auto|]. apply (D x); [now left|exact X].
  - apply IH; auto. intros y Y1 Y2. apply (D y); [now right|exact Y2].
Qed.
Lemma tidy_app g1 g2 (R1 R2 R T : nat -> Prop) : tidy g1 R1 T -> tidy g2 R2 T -> (forall l, R1 l -> R2 l -> False) ->
  (forall l, R1 l \/ R2 l -> R l) -> tidy (g1 ++ g2) R T.
Proof.
  intros (A1 & B1 & C1 & P1) (A2 & B2 & C2 & P2) D U. unfold tidy. rewrite binds_app, refs_app. split; [|split; [|split]].
  - intros l. rewrite in_app_iff. intros [X|X]; apply U; auto.
  - apply nodup_app; auto. intros x X1 X2. apply (D x); auto.
  - intros l. rewrite !in_app_iff. intros [X|X]; [destruct (C1 l X) as [?|[?|?]]|destruct (C2 l X) as [?|[?|?]]]; auto.
  - intros o. rewrite in_app_iff. intros [X|X]; auto.
Qed.
Lemma tidy_mono g (R R' T T' : nat -> Prop) : tidy g R T -> (forall l, R l -> R' l) -> (forall l, T l -> T' l \/ In l (binds g)) -> tidy g R' T'.
Proof.
  intros (A & B & C & P) HR HT. split; [|split; [|split]]; auto.
  intros l X. destruct (C l X) as [?|[?|Y]]; auto. destruct (HT l Y); auto.
Qed.
Definition none : nat -> Prop := fun _ => False.
Lemma tidy_nil (R T : nat -> Prop) : tidy [] R T.
Proof. split; [|split; [|split]]; [intros l []|constructor|intros l []|intros o []]. Qed.
Lemma tidy_emit cs (R T : nat -> Prop) : tidy [Emit cs] R T.
Proof.
  split; [|split; [|split]]; [intros l []|constructor| |intros o [<-|[]]; exact Logic.I]. intros l. unfold refs, Label_Spec.items. cbn [flat_map Label_Spec.items_of].
  rewrite app_nil_r. induction cs as [|c cs IH]; [intros []|]. cbn [map flat_map app]. exact IH.
Qed.
Lemma tidy_label op l (R T : nat -> Prop) : (exists x, l = glab x) \/ T l -> tidy [EmitLabel op l] R T.
Proof.
  intros H. split; [|split; [|split]]; [intros x []|constructor| |intros o [<-|[]]; exact Logic.I]. intros x. cbn. intros [<-|[]]. destruct H; auto.
Qed.
Lemma tidy_bind l (R T : nat -> Prop) : R l -> tidy [Bind l] R T.
Proof.
  intros H. split; [|split; [|split]]; [intros x [<-|[]]; exact H|repeat constructor; auto|intros x []|intros o [<-|[]]; exact Logic.I].
Qed.

Definition rng (a b : nat) : nat -> Prop := fun l => (a <= l < b)%nat.
Definition targets (m : mode) : nat -> Prop :=
  fun l => match m with Value => False | Test _ t => l = t | Seq _ _ t ft _ => l = t \/ l = ft end.
Lemma tidy_at g (R T T' : nat -> Prop) : tidy g R T -> (forall l, T l -> T' l) -> tidy g R T'.
Proof. intros H X. apply (tidy_mono g R R T T'); auto. Qed.
Lemma tidy_or g1 g2 (R1 R2 T : nat -> Prop) : tidy g1 R1 T -> tidy g2 R2 T -> (forall l, R1 l -> R2 l -> False) ->
  tidy (g1 ++ g2) (fun l => R1 l \/ R2 l) T.
Proof. intros A B D. eapply tidy_app; eauto. Qed.
Lemma tidy_none_l g1 g2 (R T : nat -> Prop) : tidy g1 none T -> tidy g2 R T -> tidy (g1 ++ g2) R T.
Proof. intros A B. eapply tidy_app; eauto; unfold none; tauto. Qed.
Lemma tidy_none_r g1 g2 (R T : nat -> Prop) : tidy g1 R T -> tidy g2 none T -> tidy (g1 ++ g2) R T.
Proof. intros A B. eapply tidy_app; eauto; unfold none; tauto. Qed.
Lemma tidy_none g (R T : nat -> Prop) : tidy g none T -> tidy g R T.
Proof. intros A. eapply tidy_mono; eauto; unfold none; tauto. Qed.
Lemma tidy_inner o rm kl kr right (R T : nat -> Prop) : tidy right R T -> tidy (inner o rm kl kr right) R T.
Proof.
  intros H. unfold inner. apply tidy_none_r; [|destruct o; [apply tidy_emit|apply tidy_nil]].
  destruct kl as [x|]; [apply tidy_none_r; [destruct kr; [apply tidy_emit|exact H]|apply tidy_emit]|]. cbv zeta.
  assert (S : forall (s : bool) o, tidy (if s then [Emit o] else []) none T) by (intros [] ?; [apply tidy_emit|apply tidy_nil]).
  destruct kr as [y|].
  - destruct (match o with Some op => commutative op | None => false end); [apply tidy_emit|].
    apply tidy_none_l; [apply S|]. apply tidy_none_l; [apply tidy_emit|]. apply tidy_none, S.
  - apply tidy_none_l; [apply S|]. apply tidy_none_r; [exact H|]. apply S.
Qed.
Lemma tidy_rvalue l (R T : nat -> Prop) : tidy (rvalue glab l) R T.
Proof. destruct l as [[]|]; cbn [rvalue]; try apply tidy_emit. apply tidy_label. left. eexists; reflexivity. Qed.
Lemma tidy_store l (R T : nat -> Prop) : tidy (emit_store ga l) R T.
Proof. destruct l as [[]|]; cbn [emit_store]; apply tidy_emit. Qed.
Lemma tidy_array r (R T : nat -> Prop) : tidy (array_address glab r) R T.
Proof. destruct r; cbn [array_address]; [|apply tidy_emit]. apply tidy_label. left. eexists; reflexivity. Qed.

Notation Gen := (gen glab ga).
Notation GenL := (gen_lv glab ga).
Notation GenC := (gen_chain glab ga).

Ltac leaf :=
  match goal with
  | |- tidy [] _ _ => apply (tidy_nil none)
  | |- tidy [Emit _] _ _ => apply (tidy_emit _ none)
  | |- tidy [PUSH_PRI] _ _ => apply (tidy_emit _ none)
  | |- tidy [POP_PRI] _ _ => apply (tidy_emit _ none)
  | |- tidy [POP_ALT] _ _ => apply (tidy_emit _ none)
  | |- tidy [EmitLabel _ _] _ _ => apply (tidy_label _ _ none); right; cbv beta; auto
  | |- tidy [Bind ?l] _ _ => apply (tidy_bind l (eq l)); reflexivity
  | |- tidy (rvalue _ _) _ _ => apply (tidy_rvalue _ none)
  | |- tidy (emit_store _ _) _ _ => apply (tidy_store _ none)
  | |- tidy (array_address _ _) _ _ => apply (tidy_array _ none)
  | |- tidy (inner _ _ _ _ _) _ _ => apply tidy_inner; leaf
  | |- tidy (if _ then _ else _) _ _ => match goal with |- tidy (if ?b then _ else _) _ _ => destruct b end; leaf
  | H : forall n, tidy _ _ _ |- tidy _ _ _ => eapply tidy_at; [apply H|unfold targets, none; cbv beta; intros; try contradiction; intuition congruence]
  | H : forall m n, tidy _ _ _ |- tidy _ _ _ => eapply tidy_at; [apply H|unfold targets, none; cbv beta iota; intros; try contradiction; intuition congruence]
  end.
Ltac disj := unfold rng, none; cbv beta; intros; cbn [nl nll nlc] in *; repeat match goal with H : _ \/ _ |- _ => destruct H end; subst; try contradiction; try lia.
Ltac td := match goal with |- tidy (_ ++ _) _ _ => eapply tidy_or; [td|td|disj] | _ => leaf end.
Ltac top X := eapply tidy_mono with (T := X); [td|disj|].

Lemma eff_targets md jot t : eff md = Some (jot, t) -> targets md t.
Proof.
  destruct md as [|j t'|op j t' ft last]; cbn [eff targets]; [discriminate|intros H; now injection H|].
  destruct last; [intros H; injection H as _ <-; auto|]. destruct op, j; intros H; injection H as _ <-; auto.
Qed.
Ltac inb := rewrite !binds_app, !in_app_iff; unfold binds; cbn [flat_map binds_of app In]; tauto.
Lemma gen_tidy :
  (forall e md n, tidy (Gen md e n) (rng n (n + nl e)) (targets md)) /\
  (forall l n, tidy (GenL l n) (rng n (n + nll l)) none) /\
  (forall c kl n, tidy (GenC kl c n) (rng n (n + nlc c)) none).
Proof.
  assert (MODES : forall e,
    (forall n, tidy (value_of glab ga e n) (rng n (n + nl e)) none) ->
    (forall n jot t, (forall n, tidy (value_of glab ga e n) (rng n (n + nl e)) none) -> tidy (test_of glab ga jot t e n) (rng n (n + nl e)) (eq t)) ->
    (forall md n, same_seq md e = true -> tidy (Gen md e n) (rng n (n + nl e)) (targets md)) ->
    forall md n, tidy (Gen md e n) (rng n (n + nl e)) (targets md)).
  { intros e V T Sq md n. destruct (same_seq md e) eqn:S; [auto|]. destruct (eff md) as [[jot t]|] eqn:Ef.
    - rewrite (gen_test glab ga md e n jot t Ef S). eapply tidy_at; [apply T, V|]. intros l <-. exact (eff_targets _ _ _ Ef).
    - assert (md = Value) as ->.
      { destruct md as [|j t'|op j t' ft last]; cbn [eff] in Ef; [reflexivity|discriminate|]. destruct last; [discriminate|]. destruct op; discriminate. }
      rewrite gen_value. apply V. }
  assert (NS' : forall md e n (R T : nat -> Prop), match e with Log _ _ _ => False | _ => True end -> same_seq md e = true -> tidy (Gen md e n) R T).
  { intros md e n R T X. destruct md, e; try discriminate; contradiction X. }
  assert (DEF : forall e n jot t, (forall n, tidy (value_of glab ga e n) (rng n (n + nl e)) none) ->
    tidy (value_of glab ga e n ++ [EmitLabel (if jot : bool then 54 else 53) t]) (rng n (n + nl e)) (eq t)).
  { intros e n jot t V. apply tidy_none_r; [|apply tidy_label; auto]. eapply tidy_at; [apply V|]. intros l []. }
  assert (K : forall e n g, (konst e = None -> tidy g (rng n (n + nl e)) none) ->
    tidy (match konst e with Some v => [Emit (const_pri v)] | None => g end) (rng n (n + nl e)) none).
  { intros e n g H. destruct (konst e); [apply tidy_emit|auto]. }
  apply elc_ind.
  - intros v. apply MODES; [intros n; apply tidy_emit|intros; now apply DEF|intros; now apply NS'].
  - intros l IH. apply MODES; [|intros; now apply DEF|intros; now apply NS'].
    intros n. apply K. intros _. top none; auto.
  - intros op e IH. apply MODES; [| |intros; now apply NS'].
    + intros n. apply K. intros _. top none; auto.
    + intros n jot t V. destruct op; [now apply DEF| |now apply DEF]. cbn [test_of nl]. eapply tidy_at; [apply IH|].
      unfold targets. intros l ->. reflexivity.
  - intros op a IHa b IHb. apply MODES; [| |intros; now apply NS'].
    + intros n. apply K. intros _. destruct (konst a).
      * cbn [app]. eapply tidy_mono with (T := none); [leaf|disj|auto].
      * top none; auto.
    + intros n jot t V. cbn [test_of]. destruct (is_compare op); [|now apply DEF]. top (eq t); auto.
  - intros op a IHa b IHb. apply MODES.
    + intros n. apply K. intros _. top (fun l => l = n \/ l = n + 1 \/ l = n + 2)%nat. intros l D. right.
      rewrite !binds_app, !in_app_iff. unfold binds; cbn [flat_map binds_of app In].
      destruct D as [D|[D|D]]; subst; tauto.
    + intros n jot t V. cbn [test_of]. top (fun l => t = l \/ l = n). intros l [D|D]; [now left|right]. subst. inb.
    + intros md n S. destruct md as [| |op' j t ft last]; try discriminate. cbn [same_seq] in S.
      assert (op' = op) as -> by (destruct op', op; try discriminate; reflexivity).
      rewrite gen_seq. top (fun l => l = t \/ l = ft); auto.
  - intros a IHa op b IHb rest IHc. apply MODES; [|intros; now apply DEF|intros; now apply NS'].
    intros n. apply K. intros _. eapply tidy_mono with (T := none); [|shelve|auto].
    eapply tidy_or; [td| |]. eapply tidy_or; [leaf|eapply tidy_at; [apply IHc|auto]|disj]. disj. Unshelve. disj.
  - intros c IHc a IHa b IHb. apply MODES; [|intros; now apply DEF|intros; now apply NS'].
    intros n. apply K. intros _. top (fun l => l = n \/ l = n + 1)%nat. intros l D. right.
    rewrite !binds_app, !in_app_iff. unfold binds; cbn [flat_map binds_of app In]. destruct D as [D|D]; subst; tauto.
  - intros a IHa b IHb. apply MODES; [| |intros; now apply NS'].
    + intros n. apply K. intros _. top none; auto.
    + intros n jot t V. cbn [test_of]. top (eq t); auto.
  - intros l IHl a IHa. apply MODES; [|intros; now apply DEF|intros; now apply NS'].
    intros n. apply K. intros _. top none; auto.
  - intros l IHl op a IHa. apply MODES; [|intros; now apply DEF|intros; now apply NS'].
    intros n. apply K. intros _. top none; auto.
  - intros l IHl up pre. apply MODES; [|intros; now apply DEF|intros; now apply NS'].
    intros n. apply K. intros _. destruct pre; top none; auto.
  - intros x n. apply tidy_nil.
  - intros r sz i IH n. rewrite gen_cell. apply tidy_none_l; [apply tidy_array|].
    destruct (konst i); [destruct (_ =? 0); [apply tidy_nil|apply tidy_emit]|]. top none; auto.
  - intros kl n. apply tidy_nil.
  - intros op e IHe rest IHc kl n. rewrite gen_more. top none; auto.
Qed.
End Labels.

(* ---- The property theorems ---- *)
Lemma built_laid h M g pre post : built h M -> h = pre ++ g ++ post ->
  laid (p_code (m_prog M)) (resolve h) (cells_of pre) g /\ 0 <= cells_of pre /\ size g = cells_of g /\
  cells_of pre + cells_of g + cells_of post = Z.of_nat (length (p_code (m_prog M))) /\
  4 * Z.of_nat (length (p_code (m_prog M))) < two31.
Proof.
  intros (W & C & s & R & Ec) E. destruct (laid_link h s W C R) as [L S]. pose proof (proj2 W) as Sm. rewrite <- Ec in *.
  unfold cells_of. rewrite <- !size_items. split; [|split; [|split]].
  - rewrite E in L at 2. rewrite !(Gen_Steps.laid_app M) in L. replace (0 + size pre) with (size pre) in L by lia. tauto.
  - rewrite size_items. lia.
  - reflexivity.
  - rewrite <- S, E. rewrite !size_items, !items_app, !app_length. split; [lia|].
    rewrite E in Sm. rewrite !items_app, !app_length in Sm. change (Label_Model.INT_MAX / 2) with 1073741823 in Sm. unfold two31. lia.
Qed.

Section Props.
Variables (M : machine) (sc : scope) (obase : nat -> Z) (glab : nat -> nat) (ga : nat -> Z).
Variables (h pre post : list aop).
Lemma value_correct e n st m q p a : built h M -> h = pre ++ gen glab ga Value e n ++ post -> 0 < cells_of post ->
  placed_data M sc obase (resolve h) glab ga -> (forall c, m_tmo M c = false) -> accepted e -> holds M sc obase st m ->
  hp (m_rt M) + 4 * depth e < q <= sp (m_rt M) ->
  yields M sc obase m (at_ M m q (cells_of pre) p a) q (cells_of pre + cells_of (gen glab ga Value e n)) (eval sc e st).
Proof.
  intros B E P PD TMO A H Q. destruct (built_laid h M _ _ _ B E) as (L & K & S & N & Sm).
  pose proof (proj1 (gen_correct M sc obase _ glab ga PD TMO Sm) e A Value n) as X. rewrite value_mode in X.
  specialize (X (cells_of pre) m q p a st L K ltac:(lia) H Q). rewrite S in X. unfold yields, reaches in *.
  destruct (eval sc e st) as [v st'|er st'|]; auto. destruct X as (m' & c' & G & (V & a' & ->) & Hh & O). exists m', a'. auto.
Qed.
Lemma test_correct e n jot t kt st m q p a : built h M -> h = pre ++ gen glab ga (Test jot t) e n ++ post -> 0 < cells_of post ->
  placed_data M sc obase (resolve h) glab ga -> (forall c, m_tmo M c = false) -> accepted e -> holds M sc obase st m ->
  hp (m_rt M) + 4 * depth e < q <= sp (m_rt M) ->
  resolve h t = 4 * kt -> 0 <= kt < Z.of_nat (length (p_code (m_prog M))) ->
  let next := cells_of pre + cells_of (gen glab ga (Test jot t) e n) in
  branches M sc obase m (at_ M m q (cells_of pre) p a) q (if jot then kt else next) (if jot then next else kt) (eval sc e st).
Proof.
  intros B E P PD TMO A H Q T K'. cbv zeta. destruct (built_laid h M _ _ _ B E) as (L & K & S & N & Sm).
  pose proof (proj1 (gen_correct M sc obase _ glab ga PD TMO Sm) e A (Test jot t) n) as X.
  specialize (X (cells_of pre) m q p a st L K ltac:(lia) H Q ltac:(exists kt; split; [exact T|lia])). rewrite S in X. unfold branches, reaches in *.
  destruct (eval sc e st) as [v st'|er st'|]; auto. destruct X as (m' & c' & G & (V & k' & p' & a' & -> & Ln & _) & Hh & O).
  exists m', p', a'. split; [|auto]. unfold lands in Ln. cbn [eff] in Ln.
  assert (k' = if v =? 0 then if jot then cells_of pre + cells_of (gen glab ga (Test jot t) e n) else kt else if jot then kt else cells_of pre + cells_of (gen glab ga (Test jot t) e n)) as <-; [|exact G].
  destruct (v =? 0), jot; cbn [negb Bool.eqb] in Ln; lia.
Qed.
End Props.

Lemma well_used_app pre g : well_used pre -> NoDup (binds g) -> (forall l, In l (binds g) -> placed 0 pre l = None) ->
  (forall o, In o g -> plain o) ->
  4 * cells_of (pre ++ g) <= Label_Model.INT_MAX / 2 -> well_used (pre ++ g).
Proof.
  intros W ND F NB Sm. split; [|exact Sm]. intros before o after E. destruct W as [W _].
  assert (D : (exists a, pre = before ++ o :: a) \/ exists b, before = pre ++ b /\ g = b ++ o :: after).
  { revert before E. clear. induction pre as [|x pre IH]; intros before E.
    - right. exists before. auto.
    - destruct before as [|y before].
      + cbn [app] in E. injection E as <- E. left. exists pre. reflexivity.
      + cbn [app] in E. injection E as <- E. destruct (IH before E) as [[a ->]|(b & -> & G)]; [left; exists a|right; exists b]; auto. }
  destruct D as [[a Ep]|(b & -> & Eg)]; [exact (W before o a Ep)|].
  specialize (NB o). rewrite Eg in NB. specialize (NB ltac:(apply in_or_app; right; now left)).
  destruct o; cbn [Label_Spec.allowed]; try exact Logic.I; try contradiction.
  rewrite Eg, binds_app in ND. cbn [binds flat_map binds_of app] in ND. apply NoDup_remove_2 in ND.
  rewrite placed_app, (F l) by (rewrite Eg, binds_app; apply in_or_app; right; now left).
  destruct (placed (0 + length (items pre)) b l) eqn:Pb; [|reflexivity].
  exfalso. apply ND, in_or_app. left. apply (placed_binds l b (0 + length (items pre))%nat). congruence.
Qed.
Lemma labels_ok glab ga md e n pre : well_used pre ->
  (forall l, (n <= l < n + nl e)%nat -> placed 0 pre l = None) -> 4 * cells_of (pre ++ gen glab ga md e n) <= Label_Model.INT_MAX / 2 ->
  well_used (pre ++ gen glab ga md e n) /\
  (forall l, In (Label_Spec.Ref l) (items (gen glab ga md e n)) ->
     (exists g, l = glab g) \/ placed 0 (gen glab ga md e n) l <> None \/ targets md l) /\
  (forall l, placed 0 (gen glab ga md e n) l <> None -> (n <= l < n + nl e)%nat).
Proof.
  intros W F Sm. destruct (proj1 (gen_tidy glab ga) e md n) as (A & B & C & P). unfold rng in A. split; [|split].
  - apply well_used_app; auto.
  - intros l I. rewrite (placed_binds l _ 0). apply C. now apply in_refs.
  - intros l I. apply A. now rewrite (placed_binds l _ 0) in I.
Qed.
Lemma well_used_pre pre post : well_used (pre ++ post) -> well_used pre.
Proof.
  intros [A S]. split.
  - intros before o after ->. apply (A before o (after ++ post)). now rewrite <- app_assoc.
  - rewrite items_app, app_length in S. lia.
Qed.
(* A global declared (its label placed) before the code has its address already. *)
Lemma declared_before pre post l v : well_used (pre ++ post) -> placed 0 pre l = Some v ->
  address_now pre l = v /\ resolve (pre ++ post) l = v.
Proof.
  intros W P. split; [|unfold resolve; now rewrite placed_app, P].
  apply well_used_pre in W. destruct (Label_Proofs.history_ok pre W) as (s & R & I). unfold address_now. rewrite R.
  pose proof (Label_Proofs.inv_lab _ _ _ _ I l) as L. rewrite P in L. destruct L as [-> V]. unfold Label_Proofs.HALF in V.
  rewrite Label_Proofs.to_offset by (unfold Label_Proofs.HALF; lia).
  replace ((2 * v + 1) / 2) with v by (apply (Z.div_unique _ 2 v 1); lia).
  apply Label_Proofs.wrap32_small. unfold two31. lia.
Qed.
