From Coq Require Import ZifyBool Lia.
From Verif Require Import Base Base_Proofs Rt_Model Pv_Model Pv_Spec.
Ltac Zify.zify_post_hook ::= idtac.

Lemma phys_spec L a : match phys L a with Some p => p = a /\ usable L a | None => ~ usable L a end.
Proof. unfold phys, usable. destruct (_ || _) eqn:E; lia. Qed.

Lemma find_from_spec img name : forall i found,
  (match find_from img name i found with
   | Some k => (exists j v, k = (i + j)%nat /\ nth_error img j = Some v /\ pv_name v = name /\
                  forall j' w, (j < j')%nat -> nth_error img j' = Some w -> pv_name w <> name) \/
               (found = Some k /\ unnamed img name)
   | None => found = None /\ unnamed img name
   end).
Proof.
  induction img as [|v r IH]; intros i found; cbn [find_from].
  - destruct found; [right|]; (split; [reflexivity|intros x []]).
  - specialize (IH (S i) (if list_eq_dec Z.eq_dec (pv_name v) name then Some i else found)).
    destruct (find_from r name (S i) _) as [k|].
    + destruct IH as [(j & w & -> & N & W & Later)|(F & U)].
      * left. exists (S j), w. split; [lia|]. split; [exact N|]. split; [exact W|]. intros [|j'] x Lt Nx; [lia|]. apply (Later j' x); [lia|exact Nx].
      * destruct (list_eq_dec Z.eq_dec (pv_name v) name) as [E|E].
        -- left. injection F as <-. exists 0%nat, v. split; [lia|]. split; [reflexivity|]. split; [exact E|].
           intros [|j'] w Lt Nw; [lia|]. apply U. exact (nth_error_In r j' Nw).
        -- right. split; [exact F|]. intros w [<-|I]; [exact E|exact (U w I)].
    + destruct IH as [F U]. destruct (list_eq_dec Z.eq_dec (pv_name v) name) as [E|E]; [discriminate F|].
      split; [exact F|]. intros w [<-|I]; [exact E|exact (U w I)].
Qed.
Lemma by_name_spec img name : match by_name img name with inl k => named img name k | inr e => e = ENotFound /\ unnamed img name end.
Proof.
  unfold by_name. pose proof (find_from_spec img name 0 None) as X. destruct (find_from img name 0 None) as [k|].
  - destruct X as [(j & v & -> & N & W & L)|[F _]]; [|discriminate F]. split; [eauto|exact L].
  - destruct X as [_ U]. auto.
Qed.
Lemma named_one img name k k' : named img name k -> named img name k' -> k = k'.
Proof.
  intros [(v & N & W) L] [(v' & N' & W') L']. destruct (Nat.lt_trichotomy k k') as [H|[H|H]]; [|exact H|].
  - exfalso. exact (L k' v' H N' W').
  - exfalso. exact (L' k v H N W).
Qed.

Lemma put_length {A} (x : A) l : forall i, length (put i x l) = length l.
Proof. induction l as [|y l IH]; intros [|i]; cbn [put length]; auto. Qed.
Lemma put_nth {A} (x : A) d l : forall i j, (i < length l)%nat -> nth j (put i x l) d = if Nat.eqb i j then x else nth j l d.
Proof.
  induction l as [|y l IH]; intros i j H; cbn [length] in H; [lia|]. destruct i as [|i], j as [|j]; cbn [put nth Nat.eqb]; auto.
  apply IH. lia.
Qed.

Section Image.
Variables (img : list pubvar) (data size : Z).
Hypothesis W : within data img.
Hypothesis D : data <= size < two31.
(* Entries that have been looked up hold their address. *)
Definition filled (c : list entry) : Prop := length c = length img /\
  forall i v, nth_error img i = Some v -> e_named (nth i c (mkEntry None false)) = true -> e_offs (nth i c (mkEntry None false)) = Some (pv_addr v).

Lemma the_address L v : at_work data size L -> In v img -> phys L (wrap32 (pv_addr v)) = Some (pv_addr v).
Proof.
  intros [A1 A2] I. destruct (W v I). rewrite wrap32_id by (unfold is_i32, two31 in *; lia). unfold phys. destruct (_ || _) eqn:E; [lia|reflexivity].
Qed.
Lemma by_index_right L c i : at_work data size L -> filled c ->
  fst (by_index img L c i) = match nth_error img i with Some v => inl (Some (pv_addr v)) | None => inr EIndex end /\
  filled (snd (by_index img L c i)).
Proof.
  intros A [Fl F]. unfold by_index. destruct (nth_error img i) as [v|] eqn:N; [|cbn; split; [reflexivity|split; assumption]].
  destruct (e_named (nth i c (mkEntry None false))) eqn:E; cbn [fst snd].
  - split; [now rewrite (F i v N E)|split; assumption].
  - rewrite (the_address L v A (nth_error_In _ _ N)). cbn [fst snd]. split; [reflexivity|]. split; [now rewrite put_length|].
    assert (Il : (i < length c)%nat) by (rewrite Fl; apply nth_error_Some; congruence).
    intros j w Nj. rewrite put_nth by exact Il. destruct (Nat.eqb i j) eqn:Ej; [|now apply F].
    apply Nat.eqb_eq in Ej as <-. cbn [e_named e_offs]. intros _. congruence.
Qed.
Lemma null_ref_right L name c : at_work data size L -> filled c ->
  exists o c', null_ref img L name c = inl (o, c') /\ address_of img name o /\ filled c'.
Proof.
  intros A F. unfold null_ref. pose proof (by_name_spec img name) as X. destruct (by_name img name) as [k|e].
  - destruct (by_index_right L c k A F) as [E Fc]. destruct (by_index img L c k) as [r c']. cbn [fst snd] in *. subst r.
    pose proof X as [(v & N & Nm) _]. rewrite N. exists (Some (pv_addr v)), c'. split; [reflexivity|]. split; [|exact Fc]. exists k, v. auto.
  - destruct X as [_ U]. exists None, c. split; [reflexivity|]. split; [exact U|exact F].
Qed.
Lemma initial_at_work : at_work data size (initial data size).
Proof. unfold at_work, initial. cbn [l_hp l_mem]. lia. Qed.
Lemma initialize_right : exists vec s c, initialize img data size = Loaded vec s c /\ address_of img NULL_VECTOR vec /\
  address_of img NULL_STRING s /\ filled c.
Proof.
  unfold initialize.
  assert (F0 : filled (repeat (mkEntry None false) (length img))).
  { split; [apply repeat_length|]. intros i v N. rewrite nth_repeat. discriminate. }
  destruct (null_ref_right _ NULL_VECTOR _ initial_at_work F0) as (vec & c1 & -> & A1 & F1).
  destruct (null_ref_right _ NULL_STRING _ initial_at_work F1) as (s & c2 & -> & A2 & F2).
  exists vec, s, c2. auto.
Qed.
Lemma ask_right nul L c r : address_of img NULL_STRING nul -> at_work data size L -> filled c ->
  right img L r (fst (ask img nul L c r)) /\ filled (snd (ask img nul L c r)).
Proof.
  intros Nu A F. destruct r as [i|n|i|x]; cbn [ask right].
  - destruct (by_index_right L c i A F) as [E Fc]. destruct (by_index img L c i) as [a c']. cbn [fst snd] in *. subst a.
    destruct (nth_error img i); cbn [fst snd]; auto.
  - cbn [fst snd]. split; [|exact F]. pose proof (by_name_spec img n) as X. destruct (by_name img n); exact X.
  - cbn [fst snd]. split; [|exact F]. unfold addrs. destruct (nth_error img i) as [v|] eqn:N; [|reflexivity].
    pose proof (nth_error_In _ _ N) as I. rewrite (the_address L v A I). destruct (W v I).
    rewrite wrap32_id by (unfold is_i32, two31 in *; lia). reflexivity.
  - cbn [fst snd]. split; [|exact F]. unfold string_or_null. pose proof (phys_spec L x) as X. destruct (phys L x) as [p|]; [|auto].
    destruct X as [-> U]. destruct nul as [q|].
    + destruct (x =? q) eqn:E; [apply Z.eqb_eq in E as ->; auto|]. apply Z.eqb_neq in E. split; [reflexivity|]. split; [exact U|].
      destruct Nu as (k & v & N1 & N2 & N3). intros (k' & v' & N1' & N2' & N3'). rewrite (named_one _ _ _ _ N1' N1) in N2'. congruence.
    + split; [reflexivity|]. split; [exact U|]. intros (k' & v' & [(w & N1 & N2) _] & _). exact (Nu w (nth_error_In _ _ N1) N2).
Qed.
Lemma asks_right nul h : forall c, address_of img NULL_STRING nul -> Forall (fun q => at_work data size (fst q)) h -> filled c ->
  Forall2 (fun q a => right img (fst q) (snd q) a) h (asks img nul c h).
Proof.
  induction h as [|[L r] h IH]; intros c Nu A F; cbn [asks]; [constructor|]. inversion A as [|? ? A1 A2]; subst. cbn [fst] in A1.
  destruct (ask_right nul L c r Nu A1 F) as [R Fc]. destruct (ask img nul L c r) as [a c']. cbn [fst snd] in *. constructor; [exact R|]. now apply IH.
Qed.
Lemma history_right : exists vec s c, initialize img data size = Loaded vec s c /\ address_of img NULL_VECTOR vec /\
  forall h, Forall (fun q => at_work data size (fst q)) h -> Forall2 (fun q a => right img (fst q) (snd q) a) h (asks img s c h).
Proof.
  destruct initialize_right as (vec & s & c & E & A1 & A2 & F). exists vec, s, c. split; [exact E|]. split; [exact A1|].
  intros h A. now apply asks_right.
Qed.
End Image.

(* Whatever the image: what GetPubvarAddrs gives is the variable's own address, usable at that time. *)
Lemma addrs_right img L i : match addrs img L i with
  | inl (a, p) => exists v, nth_error img i = Some v /\ a = wrap32 (pv_addr v) /\ p = a /\ usable L a
  | inr EIndex => (length img <= i)%nat
  | inr EAddress => exists v, nth_error img i = Some v /\ ~ usable L (wrap32 (pv_addr v))
  | inr ENotFound => False
  end.
Proof.
  unfold addrs. destruct (nth_error img i) as [v|] eqn:N; [|now apply nth_error_None].
  pose proof (phys_spec L (wrap32 (pv_addr v))) as X. destruct (phys L _); [|eauto]. destruct X as [-> U]. eauto.
Qed.
