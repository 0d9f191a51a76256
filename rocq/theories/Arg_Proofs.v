(* Proofs about the arguments of calls. *)
From Coq Require Import Lia.
From Verif Require Import Base Arg_Model Arg_Spec.

Section P.
Context {E : Type}.
Variable params : list param.
Variable conv : nat -> E -> option E.
Variable fixed rest : list param.
Hypothesis Split : params = fixed ++ rest.
Hypothesis Fixed : forall p, In p fixed -> p_varargs p = false.
Hypothesis Names : NoDup (map p_name fixed).
Hypothesis Rest : rest = [] \/ exists v, rest = [v] /\ p_varargs v = true.
Notation nf := (length fixed).

Lemma at_fixed i : (i < nf)%nat -> exists p, nth_error params i = Some p /\ p_varargs p = false /\ nth_error fixed i = Some p.
Proof.
  intros L. destruct (nth_error fixed i) as [p|] eqn:P.
  - exists p. split; [rewrite Split, nth_error_app1; [exact P|exact L]|]. split; [|reflexivity]. apply Fixed. apply nth_error_In in P. exact P.
  - apply nth_error_None in P. lia.
Qed.
Lemma at_rest i p : (nf <= i)%nat -> nth_error params i = Some p -> i = nf /\ p_varargs p = true /\ length params = S nf.
Proof.
  intros L H. rewrite Split, nth_error_app2 in H by exact L. rewrite Split, app_length. destruct Rest as [-> | [v [-> V]]].
  - destruct (i - nf)%nat; discriminate.
  - destruct (i - nf)%nat as [|j] eqn:J; [|destruct j; discriminate]. injection H as <-. cbn. split; [lia|split; [exact V|lia]].
Qed.
Lemma not_varargs i p : nth_error params i = Some p -> p_varargs p = false -> (i < nf)%nat /\ nth_error fixed i = Some p.
Proof.
  intros H V. destruct (Nat.lt_ge_cases i nf) as [L|L].
  - destruct (at_fixed i L) as [q [A [B C]]]. rewrite H in A. injection A as <-. auto.
  - destruct (at_rest i p L H) as [_ [W _]]. congruence.
Qed.
Lemma len_params : length params = nf \/ length params = S nf.
Proof. rewrite Split, app_length. destruct Rest as [-> | [v [-> _]]]; cbn; lia. Qed.

Lemma found_aux l i n s : find_named_arg (l ++ rest) i n = Some s -> (forall p, In p l -> p_varargs p = false) ->
  (i <= s)%nat /\ exists p, nth_error l (s - i) = Some p /\ p_name p = n.
Proof.
  revert i. induction l as [|p l IH]; intros i H A.
  - cbn [app] in H. destruct Rest as [R | [v [R V]]]; rewrite R in H; cbn in H; [discriminate|]. rewrite V in H. discriminate.
  - cbn in H. rewrite (A p (or_introl eq_refl)) in H. destruct (Nat.eqb (p_name p) n) eqn:Q.
    + injection H as <-. split; [lia|]. exists p. rewrite Nat.sub_diag. split; [reflexivity|]. apply Nat.eqb_eq, Q.
    + destruct (IH (S i) H (fun q I => A q (or_intror I))) as [L [q [B C]]]. split; [lia|]. exists q. split; [|exact C].
      replace (s - i)%nat with (S (s - S i)) by lia. exact B.
Qed.
Lemma found n s : find_named_arg params 0 n = Some s -> (s < nf)%nat /\ exists p, nth_error params s = Some p /\ p_varargs p = false /\ p_name p = n.
Proof.
  rewrite Split at 1. intros H. destruct (found_aux fixed 0 n s H Fixed) as [_ [p [A B]]]. rewrite Nat.sub_0_r in A.
  assert (L : (s < nf)%nat) by (apply nth_error_Some; congruence). split; [exact L|].
  destruct (at_fixed s L) as [q [C [D F]]]. rewrite A in F. injection F as <-. exists p. auto.
Qed.
Lemma finds_aux l i s p : (forall p, In p l -> p_varargs p = false) -> NoDup (map p_name l) -> nth_error l s = Some p ->
  find_named_arg (l ++ rest) i (p_name p) = Some (i + s)%nat.
Proof.
  revert i s. induction l as [|q l IH]; intros i s A N H; [destruct s; discriminate|]. cbn.
  rewrite (A q (or_introl eq_refl)). cbn [map] in N. inversion N as [|? ? NI N']; subst. destruct s as [|s].
  - injection H as ->. rewrite Nat.eqb_refl. f_equal. lia.
  - cbn in H. destruct (Nat.eqb (p_name q) (p_name p)) eqn:Q.
    + exfalso. apply NI. apply Nat.eqb_eq in Q. rewrite Q. apply in_map. apply nth_error_In in H. exact H.
    + rewrite (IH (S i) s (fun r I => A r (or_intror I)) N' H). f_equal. lia.
Qed.
Lemma finds s p : nth_error params s = Some p -> p_varargs p = false -> find_named_arg params 0 (p_name p) = Some s.
Proof.
  intros H V. destruct (not_varargs s p H V) as [_ F]. rewrite Split. apply (finds_aux fixed 0 s p Fixed Names F).
Qed.

(* ---- One argument, and all of them ---- *)
Definition fill1 (d : nat) (a : @written E) : option (@filled E) :=
  match a with
  | Plain e | Dot _ e => match conv d e with Some e' => Some (Given e') | None => None end
  | Skip | DotSkip _ => match nth_error params d with Some p => if p_varargs p then None else if p_default p then Some (DefaultOf d) else None | None => None end
  end.
Definition one (pos : nat) (a : @written E) : option (nat * @filled E) :=
  match a with
  | Dot n _ => match find_named_arg params 0 n with
               | Some s => match fill1 s a with Some f => Some (s, f) | None => None end
               | None => None
               end
  | _ => if (length params <=? Nat.min pos nf)%nat then None
         else match fill1 (Nat.min pos nf) a with Some f => Some (pos, f) | None => None end
  end.
Fixpoint every (pos : nat) (w : list (@written E)) : option (list (nat * @filled E)) :=
  match w with
  | [] => Some []
  | a :: r => match one pos a, every (S pos) r with Some x, Some xs => Some (x :: xs) | _, _ => None end
  end.
Definition node (a : @written E) : @parsed E := match a with Plain e => PExpr e | Dot n e => PNamed n e | Skip | DotSkip _ => PDefault end.
Definition is_dot (a : @written E) : bool := match a with Dot _ _ | DotSkip _ => true | _ => false end.
Definition no_dot_skip (w : list (@written E)) : Prop := forall n, ~ In (DotSkip n) w.
Fixpoint ordered (named : bool) (w : list (@written E)) : bool :=
  match w with [] => true | a :: r => (is_dot a || negb named) && ordered (named || is_dot a) r end.

Lemma parse_ok w named : fst (parse_args named w) = map node w /\ (snd (parse_args named w) = [] <-> ordered named w = true).
Proof.
  revert named. induction w as [|a w IH]; intros named; [cbn; tauto|]. cbn [parse_args ordered map].
  replace (match a with Dot _ _ | DotSkip _ => true | _ => false end) with (is_dot a) by (destruct a; reflexivity).
  destruct (IH (named || is_dot a)) as [I1 I2]. destruct (parse_args (named || is_dot a) w) as [ps errs]. cbn [fst snd] in *. subst ps.
  split; [destruct a; reflexivity|]. destruct (is_dot a), named; cbn [negb andb orb] in *; try exact I2.
  split; discriminate.
Qed.

Definition put (argv : list (option (@filled E))) (x : nat * @filled E) := set_at argv (fst x) (snd x).
Fixpoint fresh (argv : list (option (@filled E))) (al : list (nat * @filled E)) : Prop :=
  match al with [] => True | x :: r => nth (fst x) argv None = None /\ fresh (put argv x) r end.

Lemma nth_set argv pos (f : @filled E) i : nth i (set_at argv pos f) None = if Nat.eqb i pos then Some f else nth i argv None.
Proof.
  revert argv i. induction pos as [|pos IH]; intros argv i.
  - destruct argv, i as [|i]; cbn; try reflexivity. destruct i; reflexivity.
  - destruct argv as [|x t], i as [|i]; cbn; try reflexivity; rewrite IH; [|reflexivity]. destruct (Nat.eqb i pos); [reflexivity|]. destruct i; reflexivity.
Qed.
Lemma len_set argv pos (f : @filled E) : length (set_at argv pos f) = Nat.max (length argv) (S pos).
Proof.
  revert argv. induction pos as [|pos IH]; intros argv; destruct argv as [|x t]; cbn [set_at length]; try lia; rewrite IH; cbn [length]; lia.
Qed.

Lemma check_fill d (a : @written E) f : (d < length params)%nat -> (check_argument params conv d (Some (node a)) = Accepted f <-> fill1 d a = Some f).
Proof.
  intros L. unfold check_argument, fill1. destruct (nth_error params d) as [p|] eqn:P; [|apply nth_error_None in P; lia].
  destruct a as [e| |n e|n]; cbn [node]; try destruct (conv d e); try destruct (p_varargs p); try destruct (p_default p); cbn [negb];
    split; intros H; try discriminate; injection H as <-; reflexivity.
Qed.

Lemma bind_ok w : forall named nargs argidx argv r, ordered named w = true -> no_dot_skip w ->
  (named = true \/ argidx = Nat.min nargs nf) ->
  (bind_args params conv (map node w) nargs argidx argv = Accepted r <->
   exists al, every nargs w = Some al /\ fresh argv al /\ Forall (fun x => (fst x < 127)%nat) al /\ r = fold_left put al argv).
Proof.
  induction w as [|a w IH]; intros named nargs argidx argv r O ND T.
  - cbn. split; intros H.
    + injection H as <-. exists []. repeat split. constructor.
    + destruct H as [al [A [_ [_ ->]]]]. injection A as <-. reflexivity.
  - cbn [ordered] in O. apply andb_prop in O. destruct O as [O1 O2].
    assert (ND' : no_dot_skip w) by (intros n I; apply (ND n); right; exact I).
    cbn [map bind_args every].
    set (at_ := match node a with PNamed n _ => _ | _ => _ end).
    assert (A : match at_ with
                | Refused _ => one nargs a = None
                | Accepted (pos, d) => (d < length params)%nat /\ one nargs a = match fill1 d a with Some f => Some (pos, f) | None => None end /\
                    (is_dot a = true \/ ((if match nth_error params d with Some p => p_varargs p | None => false end then d else S d) = Nat.min (S nargs) nf))
                end).
    { subst at_. destruct a as [e| |n e|n]; cbn [node one is_dot].
      4: { exfalso. apply (ND n). left. reflexivity. }
      3: { destruct (find_named_arg params 0 n) as [s|] eqn:F; [|reflexivity]. destruct (found n s F) as [L [p [P _]]].
           split; [apply nth_error_Some; congruence|]. split; [reflexivity|left; reflexivity]. }
      all: cbn [is_dot orb] in O1, O2; destruct T as [T|T]; [subst named; discriminate|]; subst argidx;
           destruct (length params <=? Nat.min nargs nf)%nat eqn:L; [reflexivity|]; apply Nat.leb_gt in L;
           split; [exact L|]; split; [reflexivity|right];
           destruct (nth_error params (Nat.min nargs nf)) as [p|] eqn:P; [|apply nth_error_None in P; lia];
           (destruct (Nat.lt_ge_cases nargs nf) as [Q|Q];
            [rewrite (Nat.min_l nargs nf) in * by lia; destruct (at_fixed nargs Q) as [p' [P1 [P2 _]]]; rewrite P in P1; injection P1 as <-; rewrite P2; lia
            |rewrite (Nat.min_r nargs nf) in * by lia; destruct (at_rest nf p (Nat.le_refl _) P) as [_ [V _]]; rewrite V; lia]). }
    destruct at_ as [c|[pos d]].
    { rewrite A. split; [discriminate|]. intros [al [H _]]. discriminate. }
    destruct A as [L [-> T']].
    assert (Next : forall f, bind_args params conv (map node w) (S nargs)
              (if match nth_error params d with Some p => p_varargs p | None => false end then d else S d) (set_at argv pos f) = Accepted r <->
              exists al, every (S nargs) w = Some al /\ fresh (set_at argv pos f) al /\ Forall (fun x => (fst x < 127)%nat) al /\ r = fold_left put al (set_at argv pos f)).
    { intros f. apply (IH (named || is_dot a)); [exact O2|exact ND'|]. destruct T' as [T'|T']; [left; rewrite T'; apply Bool.orb_true_r|right; exact T']. }
    change SP_MAX_CALL_ARGUMENTS with 127%nat. destruct (127 <=? pos)%nat eqn:M.
    { apply Nat.leb_le in M. split; [discriminate|]. intros [al [H [_ [X _]]]]. destruct (fill1 d a); [|discriminate].
      destruct (every (S nargs) w); [|discriminate]. injection H as <-. inversion X; subst. cbn in *. lia. }
    apply Nat.leb_gt in M. destruct (nth pos argv None) as [x|] eqn:N.
    { split; [discriminate|]. intros [al [H [X _]]]. destruct (fill1 d a); [|discriminate].
      destruct (every (S nargs) w); [|discriminate]. injection H as <-. destruct X as [X _]. cbn [fst] in X. congruence. }
    destruct (fill1 d a) as [f|] eqn:F.
    + apply check_fill in F; [|exact L]. rewrite F. rewrite Next. split.
      * intros [al [H1 [H2 [H3 H4]]]]. rewrite H1. exists ((pos, f) :: al). split; [reflexivity|]. split; [split; [exact N|exact H2]|].
        split; [constructor; [exact M|exact H3]|exact H4].
      * intros [al [H1 [H2 [H3 H4]]]]. destruct (every (S nargs) w) as [al'|]; [|discriminate]. injection H1 as <-. exists al'.
        split; [reflexivity|]. destruct H2 as [_ H2]. inversion H3; subst. repeat split; assumption.
    + destruct (check_argument params conv d (Some (node a))) as [c|f] eqn:C.
      * split; [discriminate|]. intros [al [H _]]. discriminate.
      * apply check_fill in C; [congruence|exact L].
Qed.

(* ---- What is in the list afterwards ---- *)
Lemma in_after al : forall argv i f, fresh argv al ->
  (nth i (fold_left put al argv) None = Some f <-> nth i argv None = Some f \/ In (i, f) al).
Proof.
  induction al as [|x al IH]; intros argv i f F; [cbn; tauto|]. destruct F as [F1 F2]. cbn [fold_left].
  rewrite (IH (put argv x) i f F2). unfold put at 1. rewrite nth_set. destruct x as [s g]. cbn [fst snd] in *.
  destruct (Nat.eqb i s) eqn:Q.
  - apply Nat.eqb_eq in Q. subst s. split.
    + intros [H|H]; [injection H as <-; right; left; reflexivity|right; right; exact H].
    + intros [H|[H|H]]; [congruence|injection H as <-; left; reflexivity|right; exact H].
  - apply Nat.eqb_neq in Q. split; [intros [H|H]; [left; exact H|right; right; exact H]|].
    intros [H|[H|H]]; [left; exact H|injection H as H _; congruence|right; exact H].
Qed.
Lemma len_after al : forall argv s f, In (s, f) al -> (s < length (fold_left put al argv))%nat.
Proof.
  assert (G : forall al argv, (length argv <= length (fold_left put al argv))%nat).
  { clear. induction al as [|x al IH]; intros argv; [cbn; lia|]. cbn. etransitivity; [|apply IH]. unfold put. rewrite len_set. lia. }
  induction al as [|x al IH]; intros argv s f I; [destruct I|]. cbn. destruct I as [-> | I]; [|apply (IH _ _ f I)].
  eapply Nat.lt_le_trans; [|apply G]. unfold put. cbn [fst snd]. rewrite len_set. lia.
Qed.
Lemma len_from al : forall argv i, (i < length (fold_left put al argv))%nat -> (i < length argv)%nat \/ exists s f, In (s, f) al /\ (i <= s)%nat.
Proof.
  induction al as [|x al IH]; intros argv i L; [left; exact L|]. cbn in L. destruct (IH _ _ L) as [H|[s [f [I Q]]]].
  - unfold put in H. rewrite len_set in H. destruct (Nat.lt_ge_cases i (length argv)); [left; assumption|]. right.
    exists (fst x), (snd x). split; [left; destruct x; reflexivity|]. lia.
  - right. exists s, f. split; [right; exact I|exact Q].
Qed.
Lemma fresh_iff al : forall argv, fresh argv al <-> NoDup (map fst al) /\ forall s f, In (s, f) al -> nth s argv None = None.
Proof.
  induction al as [|x al IH]; intros argv; [cbn; split; [intros _; split; [constructor|tauto]|tauto]|]. cbn [fresh map].
  rewrite IH. destruct x as [s f]. cbn [fst]. split.
  - intros [N [D H]]. split.
    + constructor; [|exact D]. intros I. apply in_map_iff in I. destruct I as [[s' g] [Q I]]. cbn in Q. subst s'.
      specialize (H s g I). unfold put in H. rewrite nth_set in H. cbn [fst snd] in H. rewrite Nat.eqb_refl in H. discriminate.
    + intros s' g [Q|I]; [injection Q as <- <-; exact N|]. specialize (H s' g I). unfold put in H. rewrite nth_set in H. cbn [fst snd] in H.
      destruct (Nat.eqb s' s); [discriminate|exact H].
  - intros [D H]. inversion D as [|? ? NI D']; subst. split; [apply (H s f); left; reflexivity|]. split; [exact D'|].
    intros s' g I. unfold put. rewrite nth_set. cbn [fst snd]. destruct (Nat.eqb s' s) eqn:Q; [|apply (H s' g); right; exact I].
    apply Nat.eqb_eq in Q. subst s'. exfalso. apply NI. apply (in_map fst) in I. exact I.
Qed.

Lemma every_nth w : forall pos al, every pos w = Some al -> length al = length w /\
  forall k a, nth_error w k = Some a -> exists x, nth_error al k = Some x /\ one (pos + k) a = Some x.
Proof.
  induction w as [|a w IH]; intros pos al H.
  - injection H as <-. split; [reflexivity|]. intros [|k] a H; discriminate.
  - cbn in H. destruct (one pos a) as [x|] eqn:O; [|discriminate]. destruct (every (S pos) w) as [xs|] eqn:W; [|discriminate].
    injection H as <-. destruct (IH (S pos) xs W) as [L A]. split; [cbn; lia|]. intros [|k] b N.
    + injection N as <-. exists x. rewrite Nat.add_0_r. split; [reflexivity|exact O].
    + destruct (A k b N) as [y [Y1 Y2]]. exists y. split; [exact Y1|]. rewrite <- Y2. f_equal. lia.
Qed.
Lemma every_some w : forall pos, (forall k a, nth_error w k = Some a -> one (pos + k) a <> None) -> exists al, every pos w = Some al.
Proof.
  induction w as [|a w IH]; intros pos H; [exists []; reflexivity|]. cbn.
  destruct (one pos a) as [x|] eqn:O; [|exfalso; apply (H 0%nat a eq_refl); rewrite Nat.add_0_r; exact O].
  destruct (IH (S pos)) as [al A]; [|rewrite A; exists (x :: al); reflexivity].
  intros k b N. replace (S pos + k)%nat with (pos + S k)%nat by lia. apply H. exact N.
Qed.

(* ---- The defaults ---- *)
Lemma check_default j p : nth_error params j = Some p -> p_varargs p = false ->
  check_argument params conv j None = if p_default p then Accepted (DefaultOf j) else Refused 34.
Proof. intros P V. unfold check_argument. rewrite P, V. destruct (p_default p); reflexivity. Qed.

Lemma fill_sound r : forall l i argv, (forall k, nth_error l k = nth_error fixed (i + k)) -> (i + length l = nf)%nat ->
  fill_in params conv (l ++ rest) i argv = Accepted r ->
  (forall j, nth j r None = match nth j argv None with Some f => Some f | None => if (i <=? j)%nat && (j <? nf)%nat then Some (DefaultOf j) else None end) /\
  (forall j p, (i <= j)%nat -> nth_error fixed j = Some p -> nth j argv None = None -> p_default p = true) /\
  (forall j, (j < length r)%nat -> (j < length argv)%nat \/ (j < nf)%nat) /\ (length argv <= length r)%nat.
Proof.
  induction l as [|p l IH]; intros i argv Sl Len H.
  - assert (r = argv) as ->. { cbn [app] in H. destruct Rest as [Q | [v [Q V]]]; rewrite Q in H; cbn in H; [|rewrite V in H]; congruence. }
    cbn in Len. rewrite Nat.add_0_r in Len. subst i. split; [|split; [|split; [|lia]]].
    + intros j. destruct (nth j argv None); [reflexivity|]. destruct (nf <=? j)%nat eqn:A; [|reflexivity]. apply Nat.leb_le in A.
      replace (j <? nf)%nat with false by (symmetry; apply Nat.ltb_ge; exact A). reflexivity.
    + intros j p L P _. assert (j < nf)%nat by (apply nth_error_Some; congruence). lia.
    + auto.
  - cbn [app fill_in] in H. pose proof (Sl 0%nat) as P. rewrite Nat.add_0_r in P. cbn in P. symmetry in P.
    assert (Li : (i < nf)%nat) by (cbn in Len; lia).
    destruct (at_fixed i Li) as [p' [P1 [P2 P3]]]. rewrite P in P3. injection P3 as <-. rewrite P2 in H.
    assert (Sl' : forall k, nth_error l k = nth_error fixed (S i + k)).
    { intros k. specialize (Sl (S k)). cbn in Sl. rewrite Sl. f_equal. lia. }
    assert (Len' : (S i + length l = nf)%nat) by (cbn in Len; lia).
    destruct (nth i argv None) as [f|] eqn:N.
    + destruct (IH (S i) argv Sl' Len' H) as [A [B [C D]]]. split; [|split; [|split; [exact C|exact D]]].
      * intros j. rewrite A. destruct (nth j argv None) eqn:Nj; [reflexivity|].
        assert (j <> i) by congruence.
        destruct (S i <=? j)%nat eqn:X, (i <=? j)%nat eqn:Y; try reflexivity.
        -- apply Nat.leb_le in X. apply Nat.leb_gt in Y. lia.
        -- apply Nat.leb_gt in X. apply Nat.leb_le in Y. lia.
      * intros j q L Q M. assert (j <> i) by congruence. apply (B j q); [lia|exact Q|exact M].
    + rewrite (check_default i p P1 P2) in H. destruct (p_default p) eqn:Dp; [|discriminate].
      destruct (IH (S i) _ Sl' Len' H) as [A [B [C D]]]. rewrite len_set in D. split; [|split; [|split; [|lia]]].
      * intros j. rewrite A, nth_set. destruct (Nat.eqb j i) eqn:Q.
        -- apply Nat.eqb_eq in Q. subst j. rewrite N, Nat.leb_refl. replace (i <? nf)%nat with true by (symmetry; apply Nat.ltb_lt; exact Li). reflexivity.
        -- apply Nat.eqb_neq in Q. destruct (nth j argv None); [reflexivity|].
           destruct (S i <=? j)%nat eqn:X, (i <=? j)%nat eqn:Y; try reflexivity.
           ++ apply Nat.leb_le in X. apply Nat.leb_gt in Y. lia.
           ++ apply Nat.leb_gt in X. apply Nat.leb_le in Y. lia.
      * intros j q L Q M. destruct (Nat.eq_dec j i) as [-> |NE]; [congruence|]. apply (B j q); [lia|exact Q|].
        rewrite nth_set. apply Nat.eqb_neq in NE. rewrite NE. exact M.
      * intros j L. destruct (C j L) as [X|X]; [|auto]. rewrite len_set in X. lia.
Qed.
Lemma fill_complete : forall l i argv, (forall k, nth_error l k = nth_error fixed (i + k)) -> (i + length l = nf)%nat ->
  (forall j p, (i <= j)%nat -> nth_error fixed j = Some p -> nth j argv None = None -> p_default p = true) ->
  exists r, fill_in params conv (l ++ rest) i argv = Accepted r.
Proof.
  induction l as [|p l IH]; intros i argv Sl Len D.
  - exists argv. cbn [app]. destruct Rest as [Q | [v [Q V]]]; rewrite Q; cbn; [|rewrite V]; reflexivity.
  - cbn [app fill_in]. pose proof (Sl 0%nat) as P. rewrite Nat.add_0_r in P. cbn in P. symmetry in P.
    assert (Li : (i < nf)%nat) by (cbn in Len; lia).
    destruct (at_fixed i Li) as [p' [P1 [P2 P3]]]. rewrite P in P3. injection P3 as <-. rewrite P2.
    assert (Sl' : forall k, nth_error l k = nth_error fixed (S i + k)).
    { intros k. specialize (Sl (S k)). cbn in Sl. rewrite Sl. f_equal. lia. }
    assert (Len' : (S i + length l = nf)%nat) by (cbn in Len; lia).
    destruct (nth i argv None) as [f|] eqn:N.
    + apply IH; [exact Sl'|exact Len'|]. intros j q L Q M. apply (D j q); [lia|exact Q|exact M].
    + rewrite (check_default i p P1 P2), (D i p (Nat.le_refl _) P N). apply IH; [exact Sl'|exact Len'|].
      intros j q L Q M. rewrite nth_set in M. destruct (Nat.eqb j i); [discriminate|]. apply (D j q); [lia|exact Q|exact M].
Qed.

(* ---- The whole call ---- *)
Variable this : option E.
Variable w : list (@written E).
Hypothesis NoDotSkip : no_dot_skip w.
Hypothesis This : this <> None -> (0 < nf)%nat.
Notation off := (match this with None => 0 | Some _ => 1 end)%nat.
Notation meant := (meant_for params this w).
Notation writ := (written_for params this w).
Notation governs := (Arg_Spec.governs params).

Lemma governs_fixed s : (s < nf)%nat -> governs s = s.
Proof. intros L. unfold Arg_Spec.governs. destruct len_params; lia. Qed.
Lemma governs_min s : (Nat.min s nf < length params)%nat -> governs s = Nat.min s nf.
Proof. intros L. unfold Arg_Spec.governs. destruct len_params; lia. Qed.

(* [one] in the words of the specification. *)
Lemma one_sound k a s f : nth_error w k = Some a -> one (off + k) a = Some (s, f) ->
  meant k s /\ (exists p, nth_error params (governs s) = Some p /\ (p_varargs p = true \/ governs s = s)) /\ fill1 (governs s) a = Some f.
Proof.
  intros N O. unfold meant_for. rewrite N. destruct a as [e| |n e|n]; cbn [one] in O.
  3: { destruct (find_named_arg params 0 n) as [s'|] eqn:F; [|discriminate]. destruct (fill1 s' (Dot n e)) eqn:G; [|discriminate].
       injection O as <- <-. destruct (found n s' F) as [L [p [P [V Q]]]]. split; [exists p; auto|]. rewrite (governs_fixed s' L).
       split; [exists p; auto|exact G]. }
  3: { exfalso. apply (NoDotSkip n). apply nth_error_In in N. exact N. }
  all: destruct (length params <=? Nat.min (off + k) nf)%nat eqn:L; [discriminate|]; apply Nat.leb_gt in L;
    match type of O with match fill1 _ ?a with _ => _ end = _ => destruct (fill1 (Nat.min (off + k) nf) a) eqn:G; [|discriminate] end;
    injection O as <- <-; split; [reflexivity|]; rewrite (governs_min _ L); split; [|exact G];
    destruct (nth_error params (Nat.min (off + k) nf)) as [p|] eqn:P; try (apply nth_error_None in P; lia); exists p; split; [reflexivity|];
    (destruct (Nat.lt_ge_cases (off + k) nf) as [Q|Q]; [right; lia|left]; rewrite Nat.min_r in P by lia;
     destruct (at_rest nf p (Nat.le_refl _) P) as [_ [V _]]; exact V).
Qed.
Lemma meant_fun k s s' : meant k s -> meant k s' -> s = s'.
Proof.
  unfold meant_for. destruct (nth_error w k) as [[e| |n e|n]|]; try congruence; try tauto.
  all: intros [p [P [V Q]]] [p' [P' [V' Q']]]; pose proof (finds s p P V) as F; pose proof (finds s' p' P' V') as F'; congruence.
Qed.
Lemma one_complete k a s f : nth_error w k = Some a -> meant k s ->
  (exists p, nth_error params (governs s) = Some p /\ (p_varargs p = true \/ governs s = s)) ->
  fill1 (governs s) a = Some f -> one (off + k) a = Some (s, f).
Proof.
  intros N M [p [P R]] F. unfold meant_for in M. rewrite N in M. destruct a as [e| |n e|n]; cbn [one].
  3: { destruct M as [q [Q [V Hn]]]. subst n. rewrite (finds s q Q V). destruct (not_varargs s q Q V) as [L _]. rewrite (governs_fixed s L) in F.
       rewrite F. reflexivity. }
  3: { exfalso. apply (NoDotSkip n). apply nth_error_In in N. exact N. }
  all: rewrite <- M; assert (G : (Nat.min s nf < length params)%nat);
    [ assert (X : (governs s < length params)%nat) by (apply nth_error_Some; congruence);
      destruct (Nat.lt_ge_cases s nf) as [Q|Q]; [rewrite (governs_fixed s Q) in X; lia|];
      rewrite Nat.min_r by exact Q; destruct R as [V|R];
      [ destruct (Nat.lt_ge_cases (governs s) nf) as [Y|Y];
        [destruct (at_fixed _ Y) as [p' [P' [V' _]]]; rewrite P in P'; injection P' as <-; congruence|];
        destruct (at_rest _ p Y P) as [_ [_ Z]]; lia
      | rewrite R in P; destruct (at_rest s p Q P) as [-> [_ Z]]; lia ]
    | replace (length params <=? Nat.min s nf)%nat with false by (symmetry; apply Nat.leb_gt; exact G);
      rewrite <- (governs_min s G), F; reflexivity ].
Qed.

Lemma ordered_iff named l : ordered named l = true <->
  (named = true -> forall a, In a l -> is_dot a = true) /\
  (forall k k' a a', (k < k')%nat -> nth_error l k = Some a -> nth_error l k' = Some a' -> is_dot a = true -> is_dot a' = true).
Proof.
  revert named. induction l as [|x l IH]; intros named.
  - split; [|reflexivity]. intros _. split; [intros _ a []|]. intros [|k] k' a a' _ H; discriminate.
  - cbn [ordered]. rewrite Bool.andb_true_iff, IH. split.
    + intros [A [B C]]. split.
      * intros -> a [<- | I]; [rewrite Bool.orb_false_r in A; exact A|apply B; [reflexivity|exact I]].
      * intros k k' a a' L N N' D. destruct k' as [|k']; [lia|]. destruct k as [|k].
        -- injection N as ->. apply B; [rewrite D; apply Bool.orb_true_r|]. cbn in N'. apply nth_error_In in N'. exact N'.
        -- apply (C k k' a a'); [lia|exact N|exact N'|exact D].
    + intros [A B]. split; [|split].
      * destruct named; [|apply Bool.orb_true_r]. rewrite Bool.orb_false_r. apply A; [reflexivity|left; reflexivity].
      * intros H a I. apply Bool.orb_prop in H. destruct H as [H|H]; [apply A; [exact H|right; exact I]|].
        apply In_nth_error in I. destruct I as [k N]. apply (B 0%nat (S k) x a); [lia|reflexivity|exact N|exact H].
      * intros k k' a a' L N N'. apply (B (S k) (S k') a a'); [lia|exact N|exact N'].
Qed.
Lemma dotted_iff (a : @written E) : dotted a <-> is_dot a = true.
Proof. destruct a; cbn; split; try discriminate; tauto. Qed.

Definition starts (argv0 : list (option (@filled E))) : Prop :=
  match this with None => argv0 = [] | Some e => exists e', conv 0 e = Some e' /\ argv0 = [Some (Given e')] end.
Lemma accepted_iff r : call params conv this w = Accepted r <->
  ordered false w = true /\ exists argv0 al, starts argv0 /\ every off w = Some al /\ fresh argv0 al /\
    Forall (fun x => (fst x < 127)%nat) al /\ fill_in params conv (fixed ++ rest) 0 (fold_left put al argv0) = Accepted r.
Proof.
  unfold call. destruct (parse_ok w false) as [P1 P2]. destruct (parse_args false w) as [ps errs]. cbn [fst snd] in *. subst ps.
  destruct errs as [|c errs].
  2: { split; [discriminate|]. intros [O _]. apply P2 in O. discriminate. }
  assert (O : ordered false w = true) by (apply P2; reflexivity).
  unfold check_call, starts. clear P2.
  assert (B : forall argv0, (match bind_args params conv (map node w) off off argv0 with Refused c => Refused c | Accepted argv => fill_in params conv params 0 argv end) = Accepted r <->
              exists al, every off w = Some al /\ fresh argv0 al /\ Forall (fun x => (fst x < 127)%nat) al /\ fill_in params conv (fixed ++ rest) 0 (fold_left put al argv0) = Accepted r).
  { intros argv0. rewrite <- Split.
    assert (T : false = true \/ off = Nat.min off nf) by (right; destruct this; [assert (0 < nf)%nat by (apply This; discriminate); lia|reflexivity]).
    destruct (bind_args params conv (map node w) off off argv0) as [c|argv] eqn:Bi.
    - split; [discriminate|]. intros [al [A1 [A2 [A3 _]]]]. exfalso.
      assert (X : bind_args params conv (map node w) off off argv0 = Accepted (fold_left put al argv0)) by (apply (bind_ok w false off off argv0 _ O NoDotSkip T); exists al; auto).
      congruence.
    - apply (bind_ok w false off off argv0 argv O NoDotSkip T) in Bi. destruct Bi as [al [A1 [A2 [A3 ->]]]]. split.
      + intros H. exists al. auto.
      + intros [al' [B1 [_ [_ B4]]]]. rewrite A1 in B1. injection B1 as <-. exact B4. }
  destruct this as [e|] eqn:Te.
  - assert (L : (0 < nf)%nat) by (apply This; discriminate). destruct (at_fixed 0 L) as [p [P _]].
    assert (Ne : match params with [] => Refused 92 | _ :: _ => match check_argument params conv 0 (Some (PExpr e)) with Refused c => Refused c | Accepted f => Accepted (set_at [] 0 f, 1%nat) end end
              = match conv 0%nat e with None => Refused 0 | Some e' => Accepted ([Some (Given e')], 1%nat) end).
    { unfold check_argument. rewrite P. destruct params; [discriminate|]. destruct (conv 0%nat e); reflexivity. }
    rewrite Ne. destruct (conv 0%nat e) as [e'|].
    + rewrite B. split.
      * intros [al H]. split; [exact O|]. exists [Some (Given e')], al. split; [exists e'; auto|exact H].
      * intros [_ [argv0 [al [[e2 [Q ->]] H]]]]. injection Q as <-. exists al. exact H.
    + split; [discriminate|]. intros [_ [argv0 [al [[e2 [Q _]] _]]]]. discriminate.
  - rewrite B. split.
    + intros [al H]. split; [exact O|]. exists [], al. split; [reflexivity|exact H].
    + intros [_ [argv0 [al [-> H]]]]. exists al. exact H.
Qed.

Section Bound.
Variable argv0 : list (option (@filled E)).
Variable al : list (nat * @filled E).
Hypothesis St : starts argv0.
Hypothesis Ev : every off w = Some al.
Hypothesis Fr : fresh argv0 al.
Notation argvA := (fold_left put al argv0).

Lemma al_in k a : nth_error w k = Some a -> exists s f, nth_error al k = Some (s, f) /\ one (off + k) a = Some (s, f).
Proof. intros N. destruct (every_nth w off al Ev) as [_ A]. destruct (A k a N) as [[s f] H]. exists s, f. exact H. Qed.
Lemma al_from s f : In (s, f) al -> exists k a, nth_error w k = Some a /\ nth_error al k = Some (s, f) /\ one (off + k) a = Some (s, f).
Proof.
  intros I. apply In_nth_error in I. destruct I as [k N]. destruct (every_nth w off al Ev) as [L A].
  destruct (nth_error w k) as [a|] eqn:W.
  - exists k, a. destruct (A k a W) as [x [X1 X2]]. rewrite N in X1. injection X1 as <-. auto.
  - apply nth_error_None in W. assert (k < length al)%nat by (apply nth_error_Some; congruence). lia.
Qed.
Lemma meant_in k s : meant k s -> exists a f, nth_error w k = Some a /\ nth_error al k = Some (s, f) /\ fill1 (governs s) a = Some f.
Proof.
  intros M. destruct (nth_error w k) as [a|] eqn:N; [|unfold meant_for in M; rewrite N in M; contradiction].
  destruct (al_in k a N) as [s' [f [X1 X2]]]. destruct (one_sound k a s' f N X2) as [M' [_ F]].
  assert (s' = s) as -> by apply (meant_fun k s' s M' M). exists a, f. auto.
Qed.
Lemma once k k' s : meant k s -> meant k' s -> k = k'.
Proof.
  intros M M'. destruct (meant_in k s M) as [a [f [_ [X _]]]]. destruct (meant_in k' s M') as [a' [f' [_ [X' _]]]].
  apply fresh_iff in Fr. destruct Fr as [D _]. rewrite NoDup_nth_error in D. apply D.
  - rewrite map_length. apply nth_error_Some. congruence.
  - rewrite (map_nth_error fst k al X), (map_nth_error fst k' al X'). reflexivity.
Qed.
Lemma free k s : meant k s -> nth s argv0 None = None.
Proof.
  intros M. destruct (meant_in k s M) as [a [f [_ [X _]]]]. apply fresh_iff in Fr. destruct Fr as [_ D]. apply (D s f). apply nth_error_In in X. exact X.
Qed.
Lemma first_is f i : nth i argv0 None = Some f -> i = 0%nat /\ exists e e', this = Some e /\ conv 0 e = Some e' /\ f = Given e'.
Proof.
  unfold starts in St. destruct this as [e|].
  - destruct St as [e' [C ->]]. destruct i as [|i]; [|destruct i; discriminate]. intros H. injection H as <-. split; [reflexivity|]. exists e, e'. auto.
  - rewrite St. destruct i; discriminate.
Qed.
Lemma first_taken e : this = Some e -> exists e', conv 0 e = Some e' /\ nth 0 argv0 None = Some (Given e').
Proof. intros T. unfold starts in St. rewrite T in St. destruct St as [e' [C ->]]. exists e'. auto. Qed.
Lemma governs0 : governs 0 = 0%nat. Proof. reflexivity. Qed.

Lemma expr_there s e : writ s e -> exists e', conv (governs s) e = Some e' /\ nth s argvA None = Some (Given e').
Proof.
  intros [[-> T]|[k [M X]]].
  - destruct (first_taken e T) as [e' [C N]]. exists e'. split; [exact C|]. apply in_after; [exact Fr|]. left. exact N.
  - destruct (meant_in k s M) as [a [f [N [Na F]]]].
    assert (Y : exists e', conv (governs s) e = Some e' /\ f = Given e').
    { destruct X as [X|[n X]]; rewrite X in N; injection N as <-; cbn [fill1] in F; (destruct (conv (governs s) e) as [e'|]; [|discriminate]); injection F as <-; eauto. }
    destruct Y as [e' [C ->]]. exists e'. split; [exact C|]. apply in_after; [exact Fr|]. right. apply nth_error_In in Na. exact Na.
Qed.
Lemma there_right i f : nth i argvA None = Some f -> receives params conv this w i f.
Proof.
  intros H. apply in_after in H; [|exact Fr]. destruct H as [H|H].
  - destruct (first_is f i H) as [-> [e [e' [T [C ->]]]]]. left. exists e, e'. split; [left; auto|]. split; [exact C|reflexivity].
  - destruct (al_from i f H) as [k [a [N [Na O]]]]. destruct (one_sound k a i f N O) as [M [[p [P G]] F]].
    assert (Expr : forall e, (nth_error w k = Some (Plain e) \/ exists n, nth_error w k = Some (Dot n e)) ->
              match conv (governs i) e with Some e' => Some (Given e') | None => None end = Some f -> receives params conv this w i f).
    { intros e W C. destruct (conv (governs i) e) as [e'|] eqn:Ce; [|discriminate]. injection C as <-. left. exists e, e'. split; [|auto]. right. exists k. auto. }
    destruct a as [e| |n e|n]; cbn [fill1] in F.
    + apply (Expr e); [left; exact N|exact F].
    + rewrite P in F. destruct (p_varargs p) eqn:V; [discriminate|]. destruct (p_default p) eqn:D; [|discriminate]. injection F as <-.
      destruct G as [G|G]; [congruence|]. rewrite G in P. right. rewrite G. split; [|split; [reflexivity|exists p; auto]].
      intros e [[-> T]|[k' [M' X]]].
      * destruct (first_taken e T) as [e' [_ Q]]. pose proof (free k 0%nat M). congruence.
      * assert (k' = k) as -> by apply (once k' k i M' M). destruct X as [X|[n X]]; congruence.
    + apply (Expr e); [right; exists n; exact N|exact F].
    + exfalso. apply (NoDotSkip n). apply nth_error_In in N. exact N.
Qed.
End Bound.

Lemma fixed_shift k : nth_error fixed k = nth_error fixed (0 + k). Proof. reflexivity. Qed.

Theorem call_sound r : call params conv this w = Accepted r ->
  right params conv this w /\
  (forall i, (i < length r)%nat -> exists f, nth_error r i = Some (Some f) /\ receives params conv this w i f) /\
  (forall i p, nth_error params i = Some p -> p_varargs p = false -> (i < length r)%nat) /\
  (forall k s, meant k s -> (s < length r)%nat).
Proof.
  intros H. apply accepted_iff in H. destruct H as [O [argv0 [al [St [Ev [Fr [Max Fi]]]]]]].
  destruct (fill_sound r fixed 0 _ fixed_shift eq_refl Fi) as [R1 [R2 [R3 R4]]].
  pose proof (ordered_iff false w) as Oi. apply Oi in O. destruct O as [_ O]. clear Oi.
  assert (Def : forall i, (i < nf)%nat -> nth i (fold_left put al argv0) None = None -> receives params conv this w i (DefaultOf i)).
  { intros i L N. right. destruct (at_fixed i L) as [p [P [V F]]]. split; [|split; [reflexivity|exists p; split; [exact P|split; [exact V|apply (R2 i p); [lia|exact F|exact N]]]]].
    intros e We. destruct (expr_there argv0 al St Ev Fr i e We) as [e' [_ X]]. congruence. }
  assert (Long : forall k s, meant k s -> (s < length r)%nat).
  { intros k s M. destruct (meant_in al Ev k s M) as [a [f [_ [X _]]]]. apply nth_error_In in X.
    pose proof (len_after al argv0 s f X). lia. }
  split; [|split; [|split; [|exact Long]]].
  - constructor.
    + intros k k' a a' L N N' D. apply dotted_iff. apply dotted_iff in D. apply (O k k' a a' L N N' D).
    + intros k L. destruct (nth_error w k) as [a|] eqn:N; [|apply nth_error_None in N; lia].
      destruct (al_in al Ev k a N) as [s [f [_ X]]]. exists s. apply (one_sound k a s f N X).
    + apply (once argv0 al Ev Fr).
    + intros k s M T ->. pose proof (free argv0 al Ev Fr k 0%nat M) as F. destruct this as [e|] eqn:Te; [|congruence].
      unfold starts in St. rewrite Te in St. destruct St as [e' [_ Q]]. rewrite Q in F. discriminate.
    + intros k s M. destruct (nth_error w k) as [a|] eqn:N; [|unfold meant_for in M; rewrite N in M; contradiction].
      destruct (al_in al Ev k a N) as [s' [f [X1 X2]]]. destruct (one_sound k a s' f N X2) as [M' [G _]].
      assert (s' = s) as -> by apply (meant_fun k s' s M' M). split; [|exact G].
      rewrite Forall_forall in Max. apply nth_error_In in X1. apply (Max _ X1).
    + intros k N. destruct (al_in al Ev k Skip N) as [s [f [_ X]]]. destruct (one_sound k Skip s f N X) as [M [[p [P G]] F]].
      cbn [fill1] in F. rewrite P in F. destruct (p_varargs p) eqn:V; [discriminate|]. destruct G as [G|G]; [congruence|].
      exists s, p. rewrite G in P. auto.
    + intros s e We. destruct (expr_there argv0 al St Ev Fr s e We) as [e' [C _]]. congruence.
    + intros s p P V D. destruct (not_varargs s p P V) as [L F].
      destruct (nth s (fold_left put al argv0) None) as [f|] eqn:N.
      * destruct (there_right argv0 al St Ev Fr s f N) as [[e [e' [We _]]]|[_ [_ [q [Q [_ Dq]]]]]]; [exists e; exact We|congruence].
      * exfalso. pose proof (R2 s p (Nat.le_0_l _) F N). congruence.
  - intros i L. assert (X : exists f, nth i r None = Some f /\ receives params conv this w i f).
    { specialize (R1 i). destruct (nth i (fold_left put al argv0) None) as [f|] eqn:N.
      - exists f. split; [exact R1|]. apply (there_right argv0 al St Ev Fr i f N).
      - destruct (Nat.lt_ge_cases i nf) as [Q|Q].
        + exists (DefaultOf i). replace (0 <=? i)%nat with true in R1 by reflexivity. replace (i <? nf)%nat with true in R1 by (symmetry; apply Nat.ltb_lt; exact Q).
          split; [exact R1|]. apply Def; assumption.
        + exfalso. destruct (R3 i L) as [L'|L']; [|lia]. destruct (len_from al argv0 i L') as [L0|[s [f [I Ls]]]].
          * unfold starts in St. destruct this as [e|] eqn:Te; [|rewrite St in L0; cbn in L0; lia].
            assert (0 < nf)%nat by (apply This; discriminate). destruct St as [e' [_ Q']]. rewrite Q' in L0. cbn in L0. lia.
          * destruct (al_from al Ev s f I) as [k [a [Nk [_ Ok]]]]. destruct (one_sound k a s f Nk Ok) as [M _].
            assert (NDk : is_dot a = false /\ s = (off + k)%nat).
            { unfold meant_for in M. rewrite Nk in M. destruct a as [e| |n e|n]; try (split; [reflexivity|exact M]);
              destruct M as [p [P [V _]]]; destruct (not_varargs s p P V); lia. }
            destruct NDk as [ND ->].
            assert (Off : (off <= i)%nat) by (destruct this; [assert (0 < nf)%nat by (apply This; discriminate); lia|lia]).
            assert (Lk : (k < length w)%nat) by (apply nth_error_Some; congruence).
            destruct (nth_error w (i - off)) as [b|] eqn:Nb; [|apply nth_error_None in Nb; lia].
            assert (Db : is_dot b = false).
            { destruct (is_dot b) eqn:Db; [|reflexivity]. destruct (Nat.eq_dec (i - off) k) as [Qk|Qk]; [rewrite Qk in Nb; congruence|].
              pose proof (O (i - off)%nat k b a ltac:(lia) Nb Nk Db). congruence. }
            assert (Mb : meant (i - off) i).
            { unfold meant_for. rewrite Nb. destruct b; try discriminate; lia. }
            destruct (meant_in al Ev _ i Mb) as [a' [f' [_ [X _]]]]. apply nth_error_In in X.
            assert (Y : nth i (fold_left put al argv0) None = Some f') by (apply in_after; [exact Fr|right; exact X]). congruence. }
    destruct X as [f [X1 X2]]. exists f. split; [|exact X2]. rewrite (nth_error_nth' r None L), X1. reflexivity.
  - intros i p P V. destruct (not_varargs i p P V) as [L _]. specialize (R1 i).
    replace (i <? nf)%nat with true in R1 by (symmetry; apply Nat.ltb_lt; exact L). replace (0 <=? i)%nat with true in R1 by reflexivity. cbn [andb] in R1.
    destruct (Nat.lt_ge_cases i (length r)) as [Q|Q]; [exact Q|]. rewrite nth_overflow in R1 by exact Q.
    destruct (nth i (fold_left put al argv0) None); discriminate.
Qed.

Theorem call_complete : right params conv this w -> exists r, call params conv this w = Accepted r.
Proof.
  intros R. destruct R as [R1 R2 R3 R4 R5 R6 R7 R8].
  assert (O : ordered false w = true).
  { apply ordered_iff. split; [discriminate|]. intros k k' a a' L N N' D. apply dotted_iff. apply (R1 k k' a a' L N N'). apply dotted_iff. exact D. }
  assert (St : exists argv0, starts argv0).
  { unfold starts. destruct this as [e|] eqn:T; [|exists []; reflexivity].
    destruct (conv 0%nat e) as [e'|] eqn:C; [exists [Some (Given e')]; exists e'; auto|]. exfalso. apply (R7 0%nat e); [left; auto|exact C]. }
  destruct St as [argv0 St].
  assert (Ok : forall k a, nth_error w k = Some a -> exists s f, meant k s /\ one (off + k) a = Some (s, f)).
  { intros k a N. destruct (R2 k) as [s M]; [apply nth_error_Some; congruence|]. destruct (R5 k s M) as [_ G].
    assert (F : exists f, fill1 (governs s) a = Some f).
    { destruct a as [e| |n e|n]; cbn [fill1].
      - destruct (conv (governs s) e) eqn:C; [eauto|]. exfalso. apply (R7 s e); [right; exists k; auto|exact C].
      - destruct (R6 k N) as [s' [p [M' [P V]]]]. assert (s' = s) as -> by apply (meant_fun k s' s M' M).
        destruct (not_varargs s p P V) as [L _]. rewrite (governs_fixed s L), P, V. destruct (p_default p) eqn:D; [eauto|]. exfalso.
        destruct (R8 s p P V D) as [e [[-> T]|[k' [Mk X]]]].
        + apply (R4 k 0%nat M); [congruence|reflexivity].
        + assert (k' = k) as -> by apply (R3 k' k s Mk M). destruct X as [X|[n X]]; congruence.
      - destruct (conv (governs s) e) eqn:C; [eauto|]. exfalso. apply (R7 s e); [right; exists k; eauto|exact C].
      - exfalso. apply (NoDotSkip n). apply nth_error_In in N. exact N. }
    destruct F as [f F]. exists s, f. split; [exact M|]. apply (one_complete k a s f N M G F). }
  destruct (every_some w off) as [al Ev]. { intros k a N Q. destruct (Ok k a N) as [s [f [_ X]]]. congruence. }
  assert (Alm : forall k s f, nth_error al k = Some (s, f) -> meant k s).
  { intros k s f N. destruct (every_nth w off al Ev) as [L A]. destruct (nth_error w k) as [a|] eqn:Nw.
    - destruct (A k a Nw) as [x [X1 X2]]. rewrite N in X1. injection X1 as <-. apply (one_sound k a s f Nw X2).
    - apply nth_error_None in Nw. assert (k < length al)%nat by (apply nth_error_Some; congruence). lia. }
  assert (Fr : fresh argv0 al).
  { apply fresh_iff. split.
    - apply NoDup_nth_error. intros i j L Q. rewrite map_length in L. rewrite !nth_error_map in Q.
      destruct (nth_error al i) as [[s f]|] eqn:Ni; [|apply nth_error_None in Ni; lia]. cbn in Q.
      destruct (nth_error al j) as [[s' f']|] eqn:Nj; [|discriminate]. cbn in Q. injection Q as <-.
      apply (R3 i j s); [apply (Alm i s f Ni)|apply (Alm j s f' Nj)].
    - intros s f I. apply In_nth_error in I. destruct I as [k N]. pose proof (Alm k s f N) as M. unfold starts in St.
      destruct this as [e|] eqn:T; [|rewrite St; destruct s; reflexivity]. destruct St as [e' [_ ->]].
      assert (s <> 0%nat) by (apply (R4 k s); [exact M|discriminate]). destruct s as [|s]; [congruence|]. destruct s; reflexivity. }
  destruct (fill_complete fixed 0 (fold_left put al argv0) fixed_shift eq_refl) as [r Fi].
  { intros j p _ P N. destruct (p_default p) eqn:D; [reflexivity|]. exfalso.
    assert (L : (j < nf)%nat) by (apply nth_error_Some; congruence). destruct (at_fixed j L) as [p' [P1 [P2 P3]]]. rewrite P in P3. injection P3 as <-.
    destruct (R8 j p P1 P2 D) as [e We]. destruct (expr_there argv0 al St Ev Fr j e We) as [e' [_ X]]. congruence. }
  exists r. apply accepted_iff. split; [exact O|]. exists argv0, al. split; [exact St|]. split; [exact Ev|]. split; [exact Fr|]. split; [|exact Fi].
  apply Forall_forall. intros [s f] I. apply In_nth_error in I. destruct I as [k N]. cbn [fst]. apply (R5 k s (Alm k s f N)).
Qed.
End P.
