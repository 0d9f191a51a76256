From Verif Require Import Base Base_Proofs Small_Model Small_Spec Small_Proofs Ai_Model Ai_Spec Ai_Proofs Ai_Leaf.
From Coq Require Import ZifyBool Lia.

(* ---- From the validator to the rows ---- *)
Lemma valid_rank_step d d' r e i : valid_rank (d :: d' :: r) e i =
  match i with IList l _ => (Z.of_nat (length l) =? d) && forallb (valid_rank (d' :: r) e) l | _ => false end.
Proof. reflexivity. Qed.
Lemma rows_valid n e outer : forall i, valid_rank (outer ++ [n]) e i = true ->
  every_row outer (Some i) (fun r => exists x, r = Some x /\ valid_rank [n] e x = true).
Proof.
  induction outer as [|d r IH]; intros i H idx W; inversion W as [|? k ? idx' Hk W' E1 E2]; subst.
  - exists i. auto.
  - assert (X : exists d' r', r ++ [n] = d' :: r') by (destruct r; cbn; eauto). destruct X as (d' & r' & X).
    cbn [app] in H. rewrite X, valid_rank_step, <- X in H. destruct i as [v|v|str|l ell]; try discriminate.
    apply andb_true_iff in H as [H1 H2]. cbn [given].
    destruct (nth_error l (Z.to_nat k)) as [x|] eqn:N; [|apply nth_error_None in N; lia].
    rewrite forallb_forall in H2. apply IH; [apply H2; eapply nth_error_In; exact N|exact W'].
Qed.
Lemma rows_none outer (P : option init -> Prop) : P None -> every_row outer None P.
Proof.
  intros H idx W. revert outer W. induction idx as [|k idx IH]; intros outer W; [exact H|].
  inversion W; subst. cbn [given]. eauto.
Qed.
Lemma valid_rows n e outer i : 0 <= n -> valid (outer ++ [n]) e i = true ->
  every_row outer i (fun r => match r with Some x => valid_rank [n] e x = true | None => 0 < n end).
Proof.
  intros Hn H. destruct i as [i|]; cbn [valid] in H.
  - intros idx W. destruct (rows_valid n e outer i H idx W) as (x & -> & V). exact V.
  - apply rows_none. rewrite forallb_app in H. apply andb_true_iff in H as [_ H]. cbn [forallb] in H. lia.
Qed.

(* ---- What a row must be for each kind of element ---- *)
Definition fit (e : elem) (n : Z) : option init -> Prop :=
  match e with ECell b => good_cells b n | EChar => good_chars n | EInt64 => good_i64 n | EStruct fs => good_structs fs n end.
Definition rows_of (e : elem) (n : Z) : option init -> list Z -> Prop :=
  match e with ECell _ => cells_row n | EChar => chars_row n | EInt64 => i64_row | EStruct fs => structs_row fs n end.
Lemma leaf_any e n i s : fit e n i ->
  exists s' L, emit_leaf n e i s = Some (4 * Z.of_nat (length (flat s)) - kDataFlag, s') /\
    e_iv s' = e_iv s /\ flat s' = flat s ++ L /\ rows_of e n i L.
Proof.
  destruct e as [b| | |fs]; intros G; [apply (leaf_cells b)|apply leaf_chars|apply leaf_i64|apply leaf_structs]; exact G.
Qed.
Lemma fields_plain fs : forall l, valid_fields fs l = true ->
  (forall f fl x, nth_error fs f = Some fl -> nth_error l f = Some x -> plain_field fl x) -> fields_ok fs l.
Proof.
  induction fs as [|g fs IH]; intros [|x l] V P; cbn [fields_ok valid_fields] in *; try exact Logic.I; try discriminate.
  apply andb_true_iff in V as [V1 V2]. split.
  - specialize (P O g x eq_refl eq_refl). destruct g as [|k|k], x as [v|v|str|il ell]; cbn [field_ok plain_field] in *; try discriminate; try contradiction; auto.
    split; [exact P|lia].
  - apply IH; [exact V2|]. intros f fl y F L. exact (P (Datatypes.S f) fl y F L).
Qed.
Lemma row_fits e n i : 0 <= n -> match i with Some x => valid_rank [n] e x = true | None => 0 < n end -> plain e n i -> fit e n i.
Proof.
  intros Hn V P. destruct e as [b| | |fs]; cbn [fit plain] in *.
  - split; [exact Hn|]. destruct i as [[v|v|str|l ell]|]; cbn [valid_rank] in V; try discriminate; exact V.
  - split; [exact Hn|]. destruct i as [[v|v|str|l ell]|]; cbn [valid_rank] in V; try discriminate; try contradiction; [|exact V].
    split; [exact P|]. lia.
  - destruct i as [[v|v|str|l ell]|]; try contradiction. cbn [valid_rank] in V. unfold valid_list in V.
    apply andb_true_iff in V as [V _]. apply andb_true_iff in V as [V _]. split; assumption.
  - destruct P as [S P]. split; [exact Hn|]. split; [exact S|].
    destruct i as [[v|v|str|l ell]|]; cbn [valid_rank] in V; try discriminate; [|exact V].
    destruct P as (-> & Hl & P). split; [reflexivity|]. split; [|exact Hl].
    rewrite forallb_forall in V. rewrite Forall_forall in *. intros x Hx. specialize (V x Hx). specialize (P x Hx).
    destruct x as [v|v|str|il ell]; try discriminate. cbn [valid_struct struct_ok plain_struct] in *.
    apply andb_true_iff in V as [V _]. apply fields_plain; assumption.
Qed.

(* ---- From cells in memory to values read ---- *)
Lemma stored_part m a p L q : stored m a (p ++ L ++ q) -> stored m (a + 4 * Z.of_nat (length p)) L.
Proof.
  intros S k v N. rewrite <- (S (length p + k)%nat v).
  - f_equal. lia.
  - rewrite nth_error_app2 by lia. replace (length p + k - length p)%nat with k by lia.
    rewrite nth_error_app1; [exact N|]. apply nth_error_Some. congruence.
Qed.
Ltac Zify.zify_post_hook ::= Z.div_mod_to_equations.
Lemma load32_bytes m a v : bytes_in m -> load32 m a = wrap32 v -> cell_bytes v = [m a; m (a + 1); m (a + 2); m (a + 3)].
Proof.
  intros B H. rewrite <- cell_bytes_wrap32, <- H. unfold load32. rewrite cell_bytes_wrap32.
  pose proof (B a) as B0. pose proof (B (a + 1)) as B1. pose proof (B (a + 2)) as B2. pose proof (B (a + 3)) as B3. unfold is_byte in *.
  clear H B. revert B0 B1 B2 B3. generalize (m a) (m (a + 1)) (m (a + 2)) (m (a + 3)). clear. intros x b c d B0 B1 B2 B3. unfold cell_bytes. rewrite byte_of_0, byte_of_1, byte_of_2, byte_of_3.
  repeat f_equal; lia.
Qed.
Ltac Zify.zify_post_hook ::= idtac.
Lemma stored_bytes m L : bytes_in m -> forall a, stored m a L -> forall k v, nth_error (bytes_of_cells L) k = Some v -> m (a + Z.of_nat k) = v.
Proof.
  intros B. induction L as [|c L IH]; intros a S k v N; [destruct k; discriminate|].
  assert (C : cell_bytes c = [m a; m (a + 1); m (a + 2); m (a + 3)]).
  { apply load32_bytes; [exact B|]. rewrite <- (S O c eq_refl). f_equal. lia. }
  cbn [bytes_of_cells flat_map] in N. rewrite C in N. fold (bytes_of_cells L) in N.
  destruct k as [|[|[|[|k]]]]; cbn [app nth_error] in N.
  1-4: injection N as <-; f_equal; lia.
  rewrite <- (IH (a + 4)) with (k := k) (v := v); [f_equal; lia| |exact N].
  intros j w W. rewrite <- (S (Datatypes.S j) w W). f_equal. lia.
Qed.
Lemma stored_halves m L : forall a, stored m a (flat_map (fun x => halves (num1 x)) L) -> forall k x, nth_error L k = Some x ->
  load64 m (a + 8 * Z.of_nat k) = wrap64 (number (Some x)).
Proof.
  induction L as [|y L IH]; intros a S k x N; [destruct k; discriminate|]. cbn [flat_map halves app] in S.
  destruct k as [|k]; cbn [nth_error] in N.
  - injection N as ->. pose proof (S 0%nat _ eq_refl) as S0. pose proof (S 1%nat _ eq_refl) as S1. change (number (Some x)) with (num1 x).
    replace (a + 8 * Z.of_nat 0) with (a + 4 * Z.of_nat 0) by lia. unfold load64.
    replace (a + 4 * Z.of_nat 0 + 4) with (a + 4 * Z.of_nat 1) by lia. rewrite S0, S1.
    generalize (num1 x). clear. intros v. unfold wrap64, wrap32, u32, two32, two31, two64, two63.
    Ltac Zify.zify_post_hook ::= Z.div_mod_to_equations. lia.
  - replace (a + 8 * Z.of_nat (Datatypes.S k)) with (a + 8 + 8 * Z.of_nat k) by lia. apply IH; [|exact N].
    intros j w W. rewrite <- (S (2 + j)%nat w W). f_equal. lia.
Qed.
Ltac Zify.zify_post_hook ::= idtac.
Lemma block_field m a f i B : bytes_in m -> stored m a B -> field_block f i B -> (match f with FCell => True | FCells n | FChars n => 0 < n end) ->
  holds_field f i m a.
Proof.
  intros By S [Len F] P. destruct f as [|n|n]; cbn [holds_field].
  - destruct F as (v & N & <-). rewrite <- (S 0%nat v N). f_equal. lia.
  - intros k Hk. destruct (F k) as (v & N & <-); [split; lia|]. rewrite <- (S _ v N). f_equal. lia.
  - intros k Hk. rewrite <- (stored_bytes m B By a S (Z.to_nat k) (char_at i k)); [f_equal; lia|]. apply F. split; lia.
Qed.
Lemma blocks_hold fs i L m a : sized fs -> bytes_in m -> stored m a L -> struct_row fs i L -> holds_struct fs i m a.
Proof.
  intros Sz By S B f fl N. destruct (blocks_field fs _ L B f fl N) as (p & E & q & -> & Lp & F).
  rewrite <- Lp. apply (block_field m _ fl _ E By); [apply (stored_part m a p E q S)| |].
  - destruct i as [[v|v|str|l ell]|]; cbn [field_of] in *; try exact F; destruct f; exact F.
  - unfold sized in Sz. rewrite Forall_forall in Sz. apply Sz. eapply nth_error_In. exact N.
Qed.
Definition holds_row (e : elem) (n : Z) (r : option init) (m : memory) (a : Z) : Prop :=
  match e with
  | ECell _ => forall k, reaches n r k -> load32 m (a + 4 * k) = wrap32 (cell_at r k)
  | EChar => forall k, reaches n r k -> m (a + k) = char_at r k
  | EInt64 => forall k, reaches n r k -> load64 m (a + 8 * k) = wrap64 (number (element r k))
  | EStruct fs => forall k, reaches n r k -> holds_struct fs (element r k) m (a + 4 * (k * struct_cells fs))
  end.
Lemma row_holds e n r m a L : bytes_if e m -> stored m a L -> fit e n r -> rows_of e n r L -> holds_row e n r m a.
Proof.
  intros By S G C. destruct e as [b| | |fs]; cbn [holds_row rows_of fit bytes_if] in *; intros k K.
  - destruct (C k K) as (v & N & <-). rewrite <- (S _ v N). destruct K. f_equal. lia.
  - rewrite <- (stored_bytes m L By a S (Z.to_nat k) (char_at r k)); [destruct K; f_equal; lia|]. apply C, K.
  - destruct r as [[v|v|str|l ell]|]; try contradiction. cbn [i64_row good_i64] in *. subst L. destruct G as [_ G].
    cbn [element]. destruct K as [K0 K]. assert (Kl : k < Z.of_nat (length l)) by (cbn [element] in *; lia).
    destruct (nth_error l (Z.to_nat k)) as [x|] eqn:N; [|apply nth_error_None in N; lia].
    rewrite <- (stored_halves m l a S (Z.to_nat k) x N). f_equal. lia.
  - destruct G as (_ & Sz & _). destruct (C k K) as (p & E & q & -> & Lp & R). rewrite <- Lp.
    apply (blocks_hold fs _ E); auto. apply (stored_part m a p E q S).
Qed.

(* ---- The whole array ---- *)
Lemma array_holds e outer n i base : 0 <= n -> valid (outer ++ [n]) e i = true -> every_row outer i (plain e n) ->
  exists s, BuildCompoundInitializer (outer ++ [n]) e i base = Some s /\
  forall m, bytes_if e m -> stored m base (cells_of s) -> 0 <= base -> base + 4 * Z.of_nat (length (cells_of s)) < two31 ->
  holds e outer n i m base.
Proof.
  intros Hn V P.
  assert (G : every_row outer i (fit e n)).
  { intros idx W. apply row_fits; [exact Hn|apply (valid_rows n e outer i Hn V idx W)|apply (P idx W)]. }
  destruct (built n e (fit e n) (rows_of e n) (leaf_any e n) outer i base G) as (s & E & R).
  exists s. split; [exact E|]. intros m By St B0 B1.
  assert (H : forall idx, within outer idx -> holds_row e n (given i idx) m (row m base idx)).
  { intros idx W. destruct (R m idx St B0 B1 W) as (p & L & q & C & Co & ->).
    apply (row_holds e n _ m _ L By); [|apply (G idx W)|exact Co]. rewrite C in St. apply (stored_part m base p L q St). }
  destruct e; cbn [holds holds_row] in *; intros idx k W K; apply (H idx W k K).
Qed.
Lemma plain_cells b outer n i : every_row outer i (plain (ECell b) n).
Proof. intros idx W. exact Logic.I. Qed.

(* ---- Globals ---- *)
Lemma global_holds e outer n i data : 0 <= n -> valid (outer ++ [n]) e i = true -> every_row outer i (plain e n) ->
  exists cells, EmitGlobalArray (outer ++ [n]) e i data = Some (data ++ cells) /\
  forall m, bytes_if e m -> stored m (4 * Z.of_nat (length data)) cells -> 4 * Z.of_nat (length (data ++ cells)) < two31 ->
  holds e outer n i m (4 * Z.of_nat (length data)).
Proof.
  intros Hn V P. destruct (array_holds e outer n i (4 * Z.of_nat (length data)) Hn V P) as (s & E & H).
  exists (cells_of s). unfold EmitGlobalArray. rewrite E. split; [reflexivity|]. intros m By St B.
  rewrite app_length in B. apply H; auto; lia.
Qed.
