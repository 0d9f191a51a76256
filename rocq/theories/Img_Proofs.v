(* Proofs about reading images: bounds, the section table, names, the binary search. *)
From Coq Require Import ZifyBool.
From Coq Require String. Import String.StringSyntax.
From Verif Require Import Base Base_Proofs Rtti_Model Rtti_Spec Rtti_Safe Rt_Model Img_Model Img_Spec.
Local Open Scope Z_scope.
Ltac Zify.zify_post_hook ::= Z.div_mod_to_equations.

(* ---- The monad. ---- *)
Lemma ibind_good {A B} (m : ires A) (k : A -> ires B) b :
  ibind m k = IGood b -> exists a, m = IGood a /\ k a = IGood b.
Proof. destruct m; cbn; intros H; try discriminate; eauto. Qed.
Ltac igood H x E := apply ibind_good in H as (x & E & H).

Lemma contained_good {A} (a : A) : contained (IGood a).
Proof. repeat split; discriminate. Qed.
Lemma contained_bad {A} e : contained (@IBad A e).
Proof. repeat split; discriminate. Qed.
Lemma contained_arith {A} : contained (@IUndef A UBArith).
Proof. repeat split; discriminate. Qed.
Lemma contained_bind {A B} (m : ires A) (k : A -> ires B) :
  contained m -> (forall a, m = IGood a -> contained (k a)) -> contained (ibind m k).
Proof.
  intros M K. destruct m; cbn; auto.
  - apply contained_bad.
  - destruct M as (M1 & M2 & M3). repeat split; congruence.
  - destruct M as (_ & _ & M). congruence.
Qed.
Lemma contained_if {A} (b : bool) (x y : ires A) :
  (b = true -> contained x) -> (b = false -> contained y) -> contained (if b then x else y).
Proof. destruct b; auto. Qed.
Lemma good_contained {A} (r : ires A) : (exists a, r = IGood a) -> contained r.
Proof. intros (a & ->). apply contained_good. Qed.
#[export] Hint Resolve contained_good contained_bad : img.

(* ---- Reads. ---- *)
Lemma blen_nonneg buf : 0 <= blen buf.
Proof. unfold blen. lia. Qed.
Lemma blen_app a b : blen (a ++ b) = blen a + blen b.
Proof. unfold blen. rewrite app_length. lia. Qed.
Lemma blen_cons x l : blen (x :: l) = 1 + blen l.
Proof. unfold blen. cbn [length]. lia. Qed.
Lemma byte_range buf o : bytes buf -> is_byte (byte_at buf o).
Proof.
  intros B. unfold byte_at. destruct (Nat.lt_ge_cases (Z.to_nat o) (length buf)) as [L|L].
  - exact (proj1 (Forall_forall _ _) B _ (nth_In _ 0 L)).
  - rewrite nth_overflow by exact L. unfold is_byte. lia.
Qed.
Lemma word_range buf o : bytes buf -> is_u32 (word_at buf o).
Proof.
  intros B. unfold word_at, is_u32, two32.
  pose proof (byte_range buf o B). pose proof (byte_range buf (o + 1) B).
  pose proof (byte_range buf (o + 2) B). pose proof (byte_range buf (o + 3) B). unfold is_byte in *. lia.
Qed.
Lemma rd1_ok buf o : 0 <= o -> o + 1 <= blen buf -> rd1 buf o = IGood (byte_at buf o).
Proof. intros L H. unfold rd1. destruct (_ || _) eqn:E; [lia|reflexivity]. Qed.
Lemma rd2_ok buf o : 0 <= o -> o + 2 <= blen buf -> rd2 buf o = IGood (byte_at buf o + 256 * byte_at buf (o + 1)).
Proof. intros L H. unfold rd2. destruct (_ || _) eqn:E; [lia|reflexivity]. Qed.
Lemma rd4_ok buf o : 0 <= o -> o + 4 <= blen buf -> rd4 buf o = IGood (word_at buf o).
Proof. intros L H. unfold rd4. destruct (_ || _) eqn:E; [lia|reflexivity]. Qed.
Lemma rd1_good buf o v : rd1 buf o = IGood v -> v = byte_at buf o /\ 0 <= o /\ o + 1 <= blen buf.
Proof. unfold rd1. destruct (_ || _) eqn:E; intros H; [discriminate|]. split; [congruence|lia]. Qed.
Lemma rd2_good buf o v : rd2 buf o = IGood v -> v = byte_at buf o + 256 * byte_at buf (o + 1) /\ 0 <= o /\ o + 2 <= blen buf.
Proof. unfold rd2. destruct (_ || _) eqn:E; intros H; [discriminate|]. split; [congruence|lia]. Qed.
Lemma rd4_good buf o v : rd4 buf o = IGood v -> v = word_at buf o /\ 0 <= o /\ o + 4 <= blen buf.
Proof. unfold rd4. destruct (_ || _) eqn:E; intros H; [discriminate|]. split; [unfold word_at; congruence|lia]. Qed.
Lemma rd1_contained buf o : 0 <= o -> o + 1 <= blen buf -> contained (rd1 buf o).
Proof. intros. rewrite rd1_ok by assumption. auto with img. Qed.
Lemma rd2_contained buf o : 0 <= o -> o + 2 <= blen buf -> contained (rd2 buf o).
Proof. intros. rewrite rd2_ok by assumption. auto with img. Qed.
Lemma rd4_contained buf o : 0 <= o -> o + 4 <= blen buf -> contained (rd4 buf o).
Proof. intros. rewrite rd4_ok by assumption. auto with img. Qed.

(* ---- The binary search. ---- *)
Definition table_inside (buf : list Z) (t : table) : Prop := 0 <= tb_count t /\ inside buf (tb_off t) (8 * tb_count t).

Lemma search_ok buf t a : table_inside buf t -> forall fuel low high,
  -1 <= low < high -> high <= tb_count t -> high - low - 1 <= Z.of_nat fuel ->
  (0 <= low -> addr_of buf t low <= a) -> (high < tb_count t -> a < addr_of buf t high) ->
  exists r, search fuel buf t a low high = IGood r /\ low <= r < high /\ (0 <= r -> addr_of buf t r <= a) /\
    (r + 1 < tb_count t -> a < addr_of buf t (r + 1)).
Proof.
  intros [C (T0 & _ & T1)]. induction fuel as [|n IH]; intros low high L H F A B; cbn [search].
  - destruct (high - low >? 1) eqn:G; [lia|]. exists low. assert (high = low + 1) as -> by lia. auto with zarith.
  - destruct (high - low >? 1) eqn:G.
    2:{ exists low. assert (high = low + 1) as -> by lia. auto with zarith. }
    cbv zeta. rewrite Z.quot_div_nonneg by lia. set (mid := (low + high) / 2).
    assert (M : low < mid < high) by (unfold mid; lia).
    destruct (tb_count t <=? mid) eqn:Q; [lia|].
    rewrite rd4_ok by lia. cbn [ibind]. fold (addr_of buf t mid).
    destruct (addr_of buf t mid <=? a) eqn:P.
    + destruct (IH mid high) as (r & E & R & X); try lia. exists r. split; [exact E|]. split; [lia|exact X].
    + destruct (IH low mid) as (r & E & R & X); try lia. exists r. split; [exact E|]. split; [lia|exact X].
Qed.

Lemma lookup_index_ok buf t a : table_inside buf t ->
  exists r, lookup_index buf t a = IGood r /\ -1 <= r < tb_count t \/ lookup_index buf t a = IGood r /\ r = -1.
Proof.
  intros T. pose proof T as [C _].
  destruct (Z.eq_dec (tb_count t) 0) as [Z0|Z0].
  - unfold lookup_index. rewrite Z0. exists (-1). right. split; reflexivity.
  - destruct (search_ok buf t a T (Z.to_nat (tb_count t + 1)) (-1) (tb_count t)) as (r & E & R & _); try lia.
    exists r. left. split; [exact E|lia].
Qed.

Lemma lookup_index_sorted buf t a : table_inside buf t -> sorted buf t ->
  (exists i, last_start buf t a i /\ lookup_index buf t a = IGood i) \/
  ((forall j, 0 <= j < tb_count t -> a < addr_of buf t j) /\ lookup_index buf t a = IGood (-1)).
Proof.
  intros T Srt. pose proof T as [C _].
  destruct (search_ok buf t a T (Z.to_nat (tb_count t + 1)) (-1) (tb_count t)) as (r & E & R & A & B); try lia.
  destruct (Z.eq_dec r (-1)) as [->|N].
  - right. split; [|exact E]. intros j J. cbn in B. pose proof (Srt 0 j). lia.
  - left. exists r. split; [|exact E]. split; [lia|]. split; [apply A; lia|].
    intros j J. pose proof (Srt (r + 1) j). lia.
Qed.

(* ---- Strings. ---- *)
Lemma firstn_skipn_nth {X} (l : list X) d o : forall k, (o + k <= length l)%nat ->
  forall i, (i < k)%nat -> nth i (firstn k (skipn o l)) d = nth (o + i) l d.
Proof.
  intros k L i I. rewrite <- (firstn_skipn o l) at 2. rewrite app_nth2 by (rewrite firstn_length; lia).
  rewrite firstn_length, Nat.min_l by lia. replace (o + i - o)%nat with i by lia.
  rewrite <- (firstn_skipn k (skipn o l)) at 2. rewrite app_nth1; [reflexivity|]. rewrite firstn_length, skipn_length. lia.
Qed.

Lemma string_at_inside buf o s : string_at buf o s -> o + blen s + 1 <= blen buf.
Proof.
  intros (O' & E & _). apply (f_equal (@length Z)) in E. rewrite firstn_length, skipn_length, app_length in E. cbn [length] in E.
  unfold blen. lia.
Qed.
Lemma string_at_byte buf o s : string_at buf o s -> forall k, 0 <= k < blen s -> byte_at buf (o + k) = nth (Z.to_nat k) s 0.
Proof.
  intros St k K. pose proof (string_at_inside _ _ _ St) as I. destruct St as (O' & E & _). unfold blen in *.
  unfold byte_at. replace (Z.to_nat (o + k)) with (Z.to_nat o + Z.to_nat k)%nat by lia.
  rewrite <- (firstn_skipn_nth buf 0 (Z.to_nat o) (length s + 1)) by lia. rewrite E, app_nth1 by lia. reflexivity.
Qed.
Lemma string_at_end buf o s : string_at buf o s -> byte_at buf (o + blen s) = 0.
Proof.
  intros St. pose proof (string_at_inside _ _ _ St) as I. destruct St as (O' & E & _). unfold blen in *.
  unfold byte_at. replace (Z.to_nat (o + _)) with (Z.to_nat o + length s)%nat by lia.
  rewrite <- (firstn_skipn_nth buf 0 (Z.to_nat o) (length s + 1)) by lia. rewrite E, app_nth2 by lia.
  rewrite Nat.sub_diag. reflexivity.
Qed.

Lemma skipn_nth {X} (l : list X) d o : (o < length l)%nat -> skipn o l = nth o l d :: skipn (S o) l.
Proof.
  revert l. induction o as [|o IH]; intros [|x l] H; cbn [length] in H; try lia; [reflexivity|].
  cbn [skipn nth]. apply IH. lia.
Qed.
Lemma string_at_nil buf o : 0 <= o < blen buf -> byte_at buf o = 0 -> string_at buf o [].
Proof.
  intros L B. unfold byte_at, blen in *. split; [lia|]. split; [|constructor]. cbn [length app].
  rewrite (skipn_nth buf 0) by lia. cbn [firstn Nat.add]. rewrite B. reflexivity.
Qed.
Lemma string_at_cons buf o c s : 0 <= o -> byte_at buf o = c -> c <> 0 -> string_at buf (o + 1) s -> string_at buf o (c :: s).
Proof.
  intros L B N St. pose proof (string_at_inside _ _ _ St) as I. destruct St as (O' & E & F).
  split; [exact L|]. split; [|constructor; assumption]. unfold byte_at, blen in *.
  rewrite (skipn_nth buf 0) by lia. cbn [length app Nat.add firstn]. rewrite B. f_equal.
  replace (S (Z.to_nat o)) with (Z.to_nat (o + 1)) by lia. exact E.
Qed.
Lemma string_at_uncons buf o c s : string_at buf o (c :: s) -> byte_at buf o = c /\ c <> 0 /\ string_at buf (o + 1) s.
Proof.
  intros St. pose proof (string_at_inside _ _ _ St) as I. rewrite blen_cons in I. pose proof (blen_nonneg s).
  destruct St as (O' & E & F). unfold blen in *. rewrite (skipn_nth buf 0) in E by lia.
  cbn [length app Nat.add firstn] in E. injection E as E1 E2. inversion F as [|? ? F1 F2]; subst.
  split; [reflexivity|]. split; [exact F1|]. split; [lia|]. split; [|exact F2].
  replace (Z.to_nat (o + 1)) with (S (Z.to_nat o)) by lia. exact E2.
Qed.

(* Where there is a zero there is a string. *)
Lemma zero_string buf : forall n o, 0 <= o -> o + Z.of_nat n < blen buf -> byte_at buf (o + Z.of_nat n) = 0 ->
  exists s, string_at buf o s /\ blen s <= Z.of_nat n.
Proof.
  induction n as [|n IH]; intros o O' L B.
  - exists []. rewrite Z.add_0_r in *. split; [apply string_at_nil; [lia|exact B]|cbn; lia].
  - destruct (Z.eq_dec (byte_at buf o) 0) as [E|E].
    + exists []. split; [apply string_at_nil; [lia|exact E]|cbn; lia].
    + destruct (IH (o + 1)) as (s & St & H); [lia|lia| |].
      { replace (o + 1 + Z.of_nat n) with (o + Z.of_nat (S n)) by lia. exact B. }
      exists (byte_at buf o :: s). split; [apply string_at_cons; auto|rewrite blen_cons; lia].
Qed.

Lemma string_unique buf : forall s t o, string_at buf o s -> string_at buf o t -> s = t.
Proof.
  induction s as [|c s IH]; intros [|d t] o A B; [reflexivity| | |].
  - apply string_at_uncons in B as (B1 & B2 & _). pose proof (string_at_end _ _ _ A) as E. cbn in E. rewrite Z.add_0_r in E. congruence.
  - apply string_at_uncons in A as (B1 & B2 & _). pose proof (string_at_end _ _ _ B) as E. cbn in E. rewrite Z.add_0_r in E. congruence.
  - apply string_at_uncons in A as (A1 & A2 & A3). apply string_at_uncons in B as (B1 & B2 & B3).
    f_equal; [congruence|eapply IH; eassumption].
Qed.

(* strcmp against a string without a zero, at a place that has a string. *)
Lemma cstr_eq_ok buf : forall s t o, string_at buf o t -> Forall (fun c => c <> 0) s ->
  cstr_eq buf o s = IGood (if list_eq_dec Z.eq_dec t s then true else false).
Proof.
  induction s as [|c s IH]; intros t o St F; cbn [cstr_eq].
  - pose proof (string_at_inside _ _ _ St). pose proof (blen_nonneg t). pose proof St as (O' & _).
    rewrite rd1_ok by lia. cbn [ibind]. destruct t as [|d t].
    + pose proof (string_at_end _ _ _ St) as E. cbn in E. rewrite Z.add_0_r in E. rewrite E. destruct (list_eq_dec _ _ _); [reflexivity|congruence].
    + apply string_at_uncons in St as (B1 & B2 & _). destruct (list_eq_dec _ _ _); [discriminate|]. destruct (byte_at buf o =? 0) eqn:Q; [lia|reflexivity].
  - inversion F as [|? ? F1 F2]; subst. pose proof (string_at_inside _ _ _ St). pose proof (blen_nonneg t). pose proof St as (O' & _).
    rewrite rd1_ok by lia. cbn [ibind]. destruct t as [|d t].
    + pose proof (string_at_end _ _ _ St) as E. cbn in E. rewrite Z.add_0_r in E. rewrite E.
      destruct (0 =? c) eqn:Q; [lia|]. destruct (list_eq_dec _ _ _); [discriminate|reflexivity].
    + apply string_at_uncons in St as (B1 & B2 & B3). rewrite B1. destruct (d =? c) eqn:Q.
      * rewrite (IH t) by assumption. assert (d = c) as -> by lia.
        destruct (list_eq_dec Z.eq_dec t s), (list_eq_dec Z.eq_dec (c :: t) (c :: s)); congruence.
      * destruct (list_eq_dec Z.eq_dec (d :: t) (c :: s)) as [E|]; [|reflexivity]. injection E as E _. lia.
Qed.

(* Whatever else is there, a positive answer means the string is there. *)
Lemma cstr_eq_true buf : forall s o, Forall (fun c => c <> 0) s -> cstr_eq buf o s = IGood true -> string_at buf o s.
Proof.
  induction s as [|c s IH]; intros o F H; cbn [cstr_eq] in H; igood H b E; apply rd1_good in E as (-> & L & U).
  - apply string_at_nil; [lia|]. injection H as H. lia.
  - inversion F as [|? ? F1 F2]; subst. destruct (_ =? c) eqn:Q; [|discriminate].
    apply string_at_cons; [lia|lia|exact F1|]. apply IH; assumption.
Qed.

Lemma cstr_ok buf : forall t o n, string_at buf o t -> (length t < n)%nat -> cstr_fuel buf n o = IGood t.
Proof.
  induction t as [|c t IH]; intros o n St L; destruct n as [|n]; cbn [length] in L; try lia; cbn [cstr_fuel].
  - pose proof (string_at_inside _ _ _ St) as I. cbn in I. pose proof St as (O' & _). rewrite rd1_ok by lia. cbn [ibind].
    pose proof (string_at_end _ _ _ St) as E. cbn in E. rewrite Z.add_0_r in E. rewrite E. reflexivity.
  - pose proof (string_at_inside _ _ _ St) as I. rewrite blen_cons in I. pose proof (blen_nonneg t). pose proof St as (O' & _).
    rewrite rd1_ok by lia. cbn [ibind]. apply string_at_uncons in St as (B1 & B2 & B3).
    destruct (_ =? 0) eqn:Q; [lia|]. rewrite (IH (o + 1) n B3) by lia. cbn [ibind]. rewrite B1. reflexivity.
Qed.
Lemma cstr_string buf o t : string_at buf o t -> cstr buf o = IGood t.
Proof.
  intros St. pose proof (string_at_inside _ _ _ St). unfold cstr. apply cstr_ok; [exact St|]. unfold blen in *. lia.
Qed.
