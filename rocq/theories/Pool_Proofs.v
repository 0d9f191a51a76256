From Verif Require Import Base Base_Proofs Pool_Model Pool_Spec.
From Coq Require Import ZifyBool.
Ltac Zify.zify_post_hook ::= Z.div_mod_to_equations.

Lemma bytes_eqb_eq a b : bytes_eqb a b = true <-> a = b.
Proof.
  revert b. induction a as [|x a IH]; intros [|y b]; cbn; try (split; congruence).
  rewrite andb_true_iff, Z.eqb_eq, IH. split; [intros [-> ->]; auto | intros [=]; auto].
Qed.

Lemma lookup_some m run i : lookup m run = Some i -> In (run, i) m.
Proof.
  unfold lookup. destruct (find _ m) as [[k v]|] eqn:E; cbn; [|discriminate].
  intros [= <-]. apply find_some in E as [HI HE]. cbn in HE. apply bytes_eqb_eq in HE. now subst.
Qed.
Lemma lookup_none m run : lookup m run = None -> forall i, ~ In (run, i) m.
Proof.
  unfold lookup. destruct (find _ m) eqn:E; cbn; [discriminate|]. intros _ i HI.
  apply (find_none _ _ E) in HI. cbn in HI. enough (bytes_eqb run run = true) by congruence.
  now apply bytes_eqb_eq.
Qed.
Lemma lookup_cons m k v run :
  lookup ((k, v) :: m) run = if bytes_eqb k run then Some v else lookup m run.
Proof. unfold lookup. cbn. now destruct (bytes_eqb k run). Qed.

Definition cap_ok (b : byte_buffer) : Prop := size b <= capacity b <= INT_MAX.

Lemma growBy_room b n b' : cap_ok b -> 0 <= n -> growBy b n = Some b' ->
  used b' = used b /\ n <= capacity b' - size b' /\ cap_ok b' /\ oom b' = oom b.
Proof.
  intros [C1 C2] N. unfold growBy, tryRealloc, cap_ok, size, INT_MAX, two64 in *.
  assert (0 <= Z.of_nat (length (used b))) by lia.
  repeat match goal with |- context [if ?c then _ else _] => destruct c eqn:? end;
    try discriminate; intros [= <-]; cbn [used capacity oom]; (split; [reflexivity|]); (split; [|split; [|reflexivity]]);
    lia.
Qed.

(* The assertion at utils/byte-buffer.h:95 holds and nothing is lost when the buffer grows. *)
Lemma writeBytes_spec b data b' ok : cap_ok b -> writeBytes b data = (b', ok) ->
  cap_ok b' /\ (ok = true -> used b' = used b ++ data) /\ (ok = false -> used b' = used b /\ oom b' = true) .
Proof.
  intros C. unfold writeBytes, ensureSpace.
  destruct (capacity b - size b <? Z.of_nat (length data)) eqn:E.
  - destruct (growBy b _) as [g|] eqn:G.
    + destruct (growBy_room _ _ _ C (Zle_0_nat _) G) as (U & R & C' & O). intros [= <- <-].
      unfold cap_ok, size in *; cbn. rewrite app_length. split; [lia|]. split; [now rewrite U | discriminate].
    + intros [= <- <-]. split; [exact C|]. split; [discriminate | auto].
  - intros [= <- <-]. unfold cap_ok, size in *; cbn. rewrite app_length.
    split; [lia|]. split; [auto | discriminate].
Qed.

(* When there is room for everything within 2^31 - 1 bytes in all, counting the slack of one growth,
   the write succeeds. *)
Lemma writeBytes_ok b data : cap_ok b -> capacity b + Z.of_nat (length data) <= INT_MAX ->
  snd (writeBytes b data) = true.
Proof.
  intros [C1 C2] L. unfold writeBytes, ensureSpace.
  destruct (capacity b - size b <? Z.of_nat (length data)) eqn:E; [|reflexivity].
  unfold growBy, tryRealloc, cap_ok, size, INT_MAX, two64 in *.
  repeat match goal with |- context [if ?c then _ else _] => destruct c eqn:? end;
    try reflexivity; lia.
Qed.

Definition pool_inv (p : data_pool) : Prop :=
  cap_ok (buffer p) /\ 0 < size (buffer p) /\
  forall run i, In (run, i) (pool_map p) -> 0 < i /\ found_at (contents p) i run.

Lemma found_at_prefix l l' i run : prefix_of l l' -> found_at l i run -> found_at l' i run.
Proof.
  intros [r ->] (a & b & -> & L). exists a, (b ++ r). split; [now rewrite <- !app_assoc | exact L].
Qed.
Lemma prefix_refl l : prefix_of l l.
Proof. exists []. now rewrite app_nil_r. Qed.
Lemma prefix_trans a b c : prefix_of a b -> prefix_of b c -> prefix_of a c.
Proof. intros [x ->] [y ->]. exists (x ++ y). now rewrite app_assoc. Qed.

Lemma new_pool_inv : pool_inv new_pool.
Proof. split; [unfold cap_ok; cbn; unfold INT_MAX, size; cbn; lia|]. split; [cbn; lia|]. intros ? ? []. Qed.

Lemma pool_add_spec p run p' i : pool_inv p -> pool_add p run = (p', i) ->
  pool_inv p' /\ prefix_of (contents p) (contents p') /\
  (forall r j, lookup (pool_map p) r = Some j -> lookup (pool_map p') r = Some j) /\
  (i <> 0 -> lookup (pool_map p') run = Some i) /\
  (i = 0 -> oom (buffer p') = true /\ contents p' = contents p).
Proof.
  intros (C & P & F). unfold pool_add. destruct (lookup (pool_map p) run) as [k|] eqn:L.
  - intros [= <- <-]. split; [exact (conj C (conj P F))|]. split; [apply prefix_refl|].
    split; [auto|]. split; [auto|]. intros ->. apply lookup_some in L. apply F in L. lia.
  - destruct (writeBytes (buffer p) run) as [b' ok] eqn:W.
    destruct (writeBytes_spec _ _ _ _ C W) as (C' & T & N). destruct ok.
    + specialize (T eq_refl). intros [= <- <-].
      assert (Pre : prefix_of (contents p) (used b')) by (exists run; exact T).
      split; [|split; [exact Pre|split; [|split]]].
      * split; [exact C'|]. split.
        { cbn. unfold size in *. rewrite T, app_length. lia. }
        { intros r j [[= <- <-]|HI].
          - split; [exact P|]. exists (contents p), []. cbn. rewrite app_nil_r. split; [exact T | reflexivity].
          - destruct (F _ _ HI) as [J FA]. split; [exact J|]. eapply found_at_prefix; eauto. }
      * intros r j Hr. cbn [pool_map]. rewrite lookup_cons. destruct (bytes_eqb run r) eqn:E; [|exact Hr].
        apply bytes_eqb_eq in E. subst. congruence.
      * intros _. cbn [pool_map]. rewrite lookup_cons.
        replace (bytes_eqb run run) with true by (symmetry; now apply bytes_eqb_eq). reflexivity.
      * lia.
    + destruct (N eq_refl) as [N1 N2]. intros [= <- <-]. unfold contents; cbn.
      split; [|split; [|split; [|split]]]; auto; try (exists []; now rewrite app_nil_r, N1); try congruence.
      split; [exact C'|]. unfold size, contents in *; cbn in *. rewrite N1. auto.
Qed.

Lemma add_all_spec rs : forall p, pool_inv p ->
  pool_inv (add_all p rs) /\ prefix_of (contents p) (contents (add_all p rs)) /\
  (forall r j, lookup (pool_map p) r = Some j -> lookup (pool_map (add_all p rs)) r = Some j).
Proof.
  induction rs as [|r rs IH]; intros p I; cbn.
  - split; [exact I|]. split; [apply prefix_refl | auto].
  - destruct (pool_add p r) as [p' i] eqn:A. cbn.
    destruct (pool_add_spec _ _ _ _ I A) as (I' & P & K & _).
    destruct (IH _ I') as (I2 & P2 & K2). split; [exact I2|]. split; [eapply prefix_trans; eauto | auto].
Qed.

Lemma pool_data past run later p i : pool_add (add_all new_pool past) run = (p, i) -> i <> 0 ->
  found_at (contents (add_all p later)) i run.
Proof.
  intros A NZ. destruct (add_all_spec past _ new_pool_inv) as (I & _ & _).
  destruct (pool_add_spec _ _ _ _ I A) as (I' & _ & _ & L & _).
  destruct (add_all_spec later _ I') as (I2 & _ & K). apply I2, lookup_some, K, L, NZ.
Qed.
Lemma pool_same past run later p i : pool_add (add_all new_pool past) run = (p, i) -> i <> 0 ->
  pool_add (add_all p later) run = (add_all p later, i).
Proof.
  intros A NZ. destruct (add_all_spec past _ new_pool_inv) as (I & _ & _).
  destruct (pool_add_spec _ _ _ _ I A) as (I' & _ & _ & L & _).
  destruct (add_all_spec later _ I') as (I2 & _ & K). unfold pool_add. now rewrite (K _ _ (L NZ)).
Qed.
Lemma pool_keeps past later :
  prefix_of (contents (add_all new_pool past)) (contents (add_all (add_all new_pool past) later)).
Proof. destruct (add_all_spec past _ new_pool_inv) as (I & _ & _). now apply add_all_spec. Qed.

Lemma pool_refusal past run p : pool_add (add_all new_pool past) run = (p, 0) ->
  contents p = contents (add_all new_pool past) /\
  capacity (buffer (add_all new_pool past)) + Z.of_nat (length run) > INT_MAX.
Proof.
  intros A. destruct (add_all_spec past _ new_pool_inv) as (I & _ & _).
  destruct (pool_add_spec _ _ _ _ I A) as (I' & _ & _ & _ & Z0). split; [apply Z0; reflexivity|].
  destruct (Z_gt_le_dec (capacity (buffer (add_all new_pool past)) + Z.of_nat (length run)) INT_MAX)
    as [G|G]; [exact G|exfalso].
  pose proof (writeBytes_ok _ _ (proj1 I) G) as W. unfold pool_add in A.
  destruct (lookup _ run) as [k|] eqn:L.
  - injection A as _ ->. apply lookup_some in L. apply I in L. lia.
  - destruct (writeBytes _ run) as [b' ok]. cbn in W. subst ok. injection A as _ A.
    destruct I as (_ & P & _). lia.
Qed.

(* Name table. *)
Definition name_inv (t : name_table) : Prop :=
  buffer_size t = Z.of_nat (length (name_write t)) /\ 0 <= buffer_size t < two32 /\
  forall s i, In (s, i) (name_map t) -> found_at (name_write t) i (s ++ [0]).

Lemma name_inv_new : name_inv new_names.
Proof. split; [reflexivity|]. split; [cbn; unfold two32; lia|]. intros ? ? []. Qed.

Lemma name_write_snoc t m s n : name_write (mkNames m (names t ++ [s]) n) = name_write t ++ s ++ [0].
Proof. unfold name_write; cbn [names]. rewrite flat_map_app. cbn. now rewrite app_nil_r. Qed.

Lemma name_add_spec t s t' i : name_inv t -> Z.of_nat (length s) + 1 < two32 -> name_add t s = Some (t', i) ->
  name_inv t' /\ prefix_of (name_write t) (name_write t') /\
  (forall r j, lookup (name_map t) r = Some j -> lookup (name_map t') r = Some j) /\
  lookup (name_map t') s = Some i.
Proof.
  intros (B & R & F) LS. unfold name_add. destruct (lookup (name_map t) s) as [k|] eqn:L.
  - intros [= <- <-]. split; [exact (conj B (conj R F))|]. split; [apply prefix_refl|]. auto.
  - unfold u32_add_safe, u32. destruct (_ <? two32) eqn:E; [|discriminate]. intros [= <- <-].
    assert (LE : (buffer_size t + (Z.of_nat (length s) + 1)) mod two32 =
                 buffer_size t + (Z.of_nat (length s) + 1)).
    { apply Z.mod_small. rewrite !Z.mod_small in E by lia. lia. }
    split; [|split; [|split]].
    + unfold name_inv. rewrite name_write_snoc. cbn [buffer_size name_map]. rewrite LE.
        split; [rewrite !app_length; cbn; lia|]. split.
        { assert (0 <= Z.of_nat (length s)) by lia. rewrite <- LE. apply Z.mod_pos_bound. unfold two32; lia. }
        intros r j [[= <- <-]|HI].
        { exists (name_write t), []. now rewrite app_nil_r, <- B. }
        { eapply found_at_prefix; [|apply F, HI]. now exists (s ++ [0]). }
    + rewrite name_write_snoc. now exists (s ++ [0]).
    + intros r j Hr. cbn [name_map]. rewrite lookup_cons. destruct (bytes_eqb s r) eqn:E2; [|exact Hr].
      apply bytes_eqb_eq in E2. subst. congruence.
    + cbn [name_map]. rewrite lookup_cons.
      replace (bytes_eqb s s) with true by (symmetry; now apply bytes_eqb_eq). reflexivity.
Qed.

Lemma names_all_spec ss : forall t t', name_inv t -> Forall (fun s => Z.of_nat (length s) + 1 < two32) ss ->
  names_all t ss = Some t' ->
  name_inv t' /\ prefix_of (name_write t) (name_write t') /\
  (forall r j, lookup (name_map t) r = Some j -> lookup (name_map t') r = Some j).
Proof.
  induction ss as [|s ss IH]; intros t t' I L; cbn.
  - intros [= <-]. split; [exact I|]. split; [apply prefix_refl | auto].
  - inversion L as [|? ? L1 L2]; subst. destruct (name_add t s) as [[t1 i]|] eqn:A; [|discriminate]. intros E.
    destruct (name_add_spec _ _ _ _ I L1 A) as (I' & P & K & _).
    destruct (IH _ _ I' L2 E) as (I2 & P2 & K2). split; [exact I2|].
    split; [eapply prefix_trans; eauto | auto].
Qed.

Lemma name_data past str later t t1 i t2 :
  Forall (fun s => Z.of_nat (length s) + 1 < two32) (past ++ str :: later) ->
  names_all new_names past = Some t -> name_add t str = Some (t1, i) -> names_all t1 later = Some t2 ->
  found_at (name_write t2) i (str ++ [0]) /\ name_add t2 str = Some (t2, i) /\
  prefix_of (name_write t1) (name_write t2) /\ buffer_size t2 = Z.of_nat (length (name_write t2)).
Proof.
  intros L N A M. apply Forall_app in L as [L1 L2]. inversion L2 as [|? ? L3 L4]; subst.
  destruct (names_all_spec _ _ _ name_inv_new L1 N) as (I & _ & _).
  destruct (name_add_spec _ _ _ _ I L3 A) as (I1 & _ & _ & K).
  destruct (names_all_spec _ _ _ I1 L4 M) as (I2 & P2 & K2). apply K2 in K.
  split; [apply I2, lookup_some, K|]. split; [unfold name_add; now rewrite K|].
  split; [exact P2 | apply I2].
Qed.
