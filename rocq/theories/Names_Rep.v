(* What the scopes kept by the compiler stand for, and the fold over the
   occurrences of a program that they follow. *)

From Coq Require Import ZArith List Bool Arith Lia.
From Verif Require Import Names_Model Names_Spec.
Import ListNotations.
Local Open Scope Z_scope.

Definition block_dec (a b : block) : {a = b} + {a <> b}.
Proof. decide equality; [apply Nat.eq_dec | apply (list_eq_dec Nat.eq_dec)]. Defined.
Definition place_dec (a b : place) : {a = b} + {a <> b} := list_eq_dec block_dec a b.

Definition at_ (D : table) (q : place) : list decl :=
  map snd (filter (fun x => if place_dec (fst x) q then true else false) D).

Fixpoint vis (D : table) (p : place) (n : Z) : option (place * decl) :=
  match tab_find n (at_ D p) with
  | Some d => Some (p, d)
  | None => match p with [] => None | _ :: p' => vis D p' n end
  end.

Definition links_of (d d' : decl) (L : list (Z * Z)) : list (Z * Z) :=
  (d_pos d, d_pos d') :: (d_pos d', d_pos d) :: L.

(* One occurrence. *)
Definition ev1 (D : table) (L : list (Z * Z)) (o : occ) : list ev :=
  match o with
  | OUse q u n =>
    match vis D q n with
    | Some (_, d) => [Bound u (d_pos d) (canonical L d)]
    | None => [Undef u]
    end
  | ODecl q w d =>
    match tab_find (d_name d) (at_ D q) with
    | Some _ => [Redef (d_pos d)]
    | None =>
      match w, vis D (tl q) (d_name d) with
      | NativeArgument, _ => []
      | _, None => []
      | Plain, Some _ => [Shadow (d_pos d)]
      | Argument, Some (_, d') =>
        match d_fn d' with Some _ => [] | None => [Shadow (d_pos d)] end
      end
    end
  | OVar f static d =>
    match tab_find (d_name d) (at_ D [InFile f]) with
    | Some _ => [Redef (d_pos d)]
    | None => match tab_find (d_name d) (at_ D []) with
              | Some _ => if static then [Shadow (d_pos d)] else [Redef (d_pos d)]
              | None => []
              end
    end
  | OFun _ _ _ => []
  end.

Definition dD1 (D : table) (o : occ) : table :=
  match o with
  | OUse _ _ _ => D
  | ODecl q _ d => (q, d) :: D
  | OVar f st d => (top_place f st, d) :: D
  | OFun f a d => match vis D [InFile f] (d_name d) with
                  | Some _ => D
                  | None => (top_place f (f_static a), d) :: D
                  end
  end.

Definition dL1 (D : table) (L : list (Z * Z)) (o : occ) : list (Z * Z) :=
  match o with
  | OFun f a d => match vis D [InFile f] (d_name d) with
                  | Some (_, d') => links_of d d' L
                  | None => L
                  end
  | _ => L
  end.

Fixpoint dD (D : table) (O : list occ) : table :=
  match O with [] => D | o :: O' => dD (dD1 D o) O' end.
Fixpoint dL (D : table) (L : list (Z * Z)) (O : list occ) : list (Z * Z) :=
  match O with [] => L | o :: O' => dL (dD1 D o) (dL1 D L o) O' end.
Fixpoint evs (D : table) (L : list (Z * Z)) (O : list occ) : list ev :=
  match O with [] => [] | o :: O' => ev1 D L o ++ evs (dD1 D o) (dL1 D L o) O' end.

Definition okpair (L : list (Z * Z)) (d' : decl) (a : fattr) : Prop :=
  exists a', d_fn d' = Some a' /\ two_halves a' a /\ assoc (d_pos d') L = None.
Definition pf1 (D : table) (L : list (Z * Z)) (o : occ) : Prop :=
  match o with
  | OFun f a d => match vis D [InFile f] (d_name d) with
                  | Some (_, d') => okpair L d' a
                  | None => True
                  end
  | _ => True
  end.
Fixpoint pf (D : table) (L : list (Z * Z)) (O : list occ) : Prop :=
  match O with [] => True | o :: O' => pf1 D L o /\ pf (dD1 D o) (dL1 D L o) O' end.

Definition has_err (l : list ev) : bool := existsb is_error l.

Lemma has_err_app : forall a b, has_err (a ++ b) = has_err a || has_err b.
Proof. intros. unfold has_err. apply existsb_app. Qed.

Lemma dD_app : forall O1 D O2, dD D (O1 ++ O2) = dD (dD D O1) O2.
Proof. induction O1; cbn [dD app]; auto. Qed.
Lemma dL_app : forall O1 D L O2, dL D L (O1 ++ O2) = dL (dD D O1) (dL D L O1) O2.
Proof. induction O1; cbn [dD dL app]; auto. Qed.
Lemma evs_app : forall O1 D L O2,
  evs D L (O1 ++ O2) = evs D L O1 ++ evs (dD D O1) (dL D L O1) O2.
Proof.
  induction O1 as [|o O1 IH]; intros; cbn [dD dL evs app]; [reflexivity|].
  rewrite IH, app_assoc. reflexivity.
Qed.
Lemma pf_app : forall O1 D L O2,
  pf D L (O1 ++ O2) <-> pf D L O1 /\ pf (dD D O1) (dL D L O1) O2.
Proof.
  induction O1 as [|o O1 IH]; intros; cbn [dD dL pf app]; [tauto|].
  rewrite IH. tauto.
Qed.

Lemma at_cons : forall D q d q', at_ ((q, d) :: D) q' =
  if place_dec q q' then d :: at_ D q' else at_ D q'.
Proof.
  intros. unfold at_. cbn [filter fst]. destruct (place_dec q q'); reflexivity.
Qed.

Lemma at_in : forall D q d, In d (at_ D q) <-> In (q, d) D.
Proof.
  intros. unfold at_. rewrite in_map_iff. split.
  - intros [[q1 d1] [E I]]. apply filter_In in I. destruct I as [I C]. cbn [fst snd] in E, C.
    destruct (place_dec q1 q) as [<-|]; [|discriminate]. subst d1. exact I.
  - intros I. exists (q, d). split; [reflexivity|]. apply filter_In. split; [exact I|].
    cbn [fst]. destruct (place_dec q q); [reflexivity|congruence].
Qed.

Lemma tab_find_some : forall n t d, tab_find n t = Some d -> In d t /\ d_name d = n.
Proof.
  induction t as [|x t IH]; cbn [tab_find]; intros d E; [discriminate|].
  destruct (Z.eqb_spec (d_name x) n) as [EQ|NE].
  - injection E as <-. split; [left; reflexivity|exact EQ].
  - destruct (IH _ E). split; [right; assumption|assumption].
Qed.

Lemma tab_find_none : forall n t, tab_find n t = None -> forall d, In d t -> d_name d <> n.
Proof.
  induction t as [|x t IH]; cbn [tab_find]; intros E d I; [destruct I|].
  destruct (Z.eqb_spec (d_name x) n) as [EQ|NE]; [discriminate|].
  destruct I as [<-|I]; [exact NE|exact (IH E _ I)].
Qed.

Section Rep.
Variable B : nat.
Variable h : list scope.
Variable D : table.

(* The scope and the creators the compiler has where place q is being read. *)
Inductive rep : place -> nat -> list creator -> Prop :=
| r_glob : (B < length h)%nat ->
    nth_error h 0 = Some (mkS None KGlobal (at_ D [])) -> rep [] 0 []
| r_file : forall f, (f < B)%nat -> rep [] 0 [] ->
    nth_error h (S f) = Some (mkS (Some 0%nat) KFile (at_ D [InFile f])) ->
    rep [InFile f] (S f) []
| r_arg : forall w q cur i, rep q cur [] -> (cur < i)%nat -> (B < i)%nat ->
    nth_error h i = Some (mkS (Some cur) KArg (at_ D (At w :: q))) ->
    rep (At w :: q) i []
| r_noarg : forall w q cur, rep q cur [] -> at_ D (At w :: q) = [] -> rep (At w :: q) cur []
| r_lazy : forall w q cur cs pend, rep q cur cs -> at_ D (At w :: q) = [] ->
    Forall (fun i => cur < i /\ B < i)%nat pend ->
    rep (At w :: q) cur (mkC cur KLocal pend :: cs)
| r_made : forall w q prev cur cs pend, rep q prev cs -> (prev < cur)%nat -> (B < cur)%nat ->
    nth_error h cur = Some (mkS (Some prev) KLocal (at_ D (At w :: q))) ->
    Forall (fun i => prev < i /\ B < i)%nat pend ->
    rep (At w :: q) cur (mkC prev KLocal pend :: cs).

Lemma rep_lt : forall q cur cs, rep q cur cs -> (cur < length h)%nat /\ (B < length h)%nat.
Proof.
  intros q cur cs R. induction R; repeat match goal with
  | E : nth_error h ?i = Some _ |- _ =>
    assert ((i < length h)%nat) by (apply nth_error_Some; rewrite E; discriminate); clear E
  end; lia.
Qed.

Lemma rep_find : forall q cur cs, rep q cur cs -> forall n fuel, (cur < fuel)%nat ->
  match vis D q n with
  | None => find_sym fuel h cur n = LNone
  | Some (_, d) => exists s, find_sym fuel h cur n = LFound d s /\ (s <= cur)%nat
  end.
Proof.
  intros q cur cs R. induction R; intros n fuel F; (destruct fuel as [|fuel]; [lia|]);
    cbn [find_sym].
  - rewrite H0. cbn [s_tab s_parent vis].
    destruct (tab_find n (at_ D [])); [exists 0%nat; split; [reflexivity|lia]|reflexivity].
  - rewrite H0. cbn [s_tab s_parent]. change (vis D [InFile f] n) with
      (match tab_find n (at_ D [InFile f]) with
       | Some d => Some ([InFile f], d) | None => vis D [] n end).
    destruct (tab_find n (at_ D [InFile f])) as [d|];
      [exists (S f); split; [reflexivity|lia]|].
    specialize (IHR n fuel ltac:(lia)). destruct (vis D [] n) as [[q' d]|]; [|exact IHR].
    destruct IHR as [s [-> LE]]. exists s. split; [reflexivity|lia].
  - rewrite H1. cbn [s_tab s_parent]. change (vis D (At w :: q) n) with
      (match tab_find n (at_ D (At w :: q)) with
       | Some d => Some (At w :: q, d) | None => vis D q n end).
    destruct (tab_find n (at_ D (At w :: q))) as [d|];
      [exists i; split; [reflexivity|lia]|].
    specialize (IHR n fuel ltac:(lia)). destruct (vis D q n) as [[q' d]|]; [|exact IHR].
    destruct IHR as [s [-> LE]]. exists s. split; [reflexivity|lia].
  - change (vis D (At w :: q) n) with
      (match tab_find n (at_ D (At w :: q)) with
       | Some d => Some (At w :: q, d) | None => vis D q n end).
    rewrite H. cbn [tab_find]. exact (IHR n (S fuel) F).
  - change (vis D (At w :: q) n) with
      (match tab_find n (at_ D (At w :: q)) with
       | Some d => Some (At w :: q, d) | None => vis D q n end).
    rewrite H. cbn [tab_find]. exact (IHR n (S fuel) F).
  - rewrite H1. cbn [s_tab s_parent]. change (vis D (At w :: q) n) with
      (match tab_find n (at_ D (At w :: q)) with
       | Some d => Some (At w :: q, d) | None => vis D q n end).
    destruct (tab_find n (at_ D (At w :: q))) as [d|];
      [exists cur; split; [reflexivity|lia]|].
    specialize (IHR n fuel ltac:(lia)). destruct (vis D q n) as [[q' d]|]; [|exact IHR].
    destruct IHR as [s [-> LE]]. exists s. split; [reflexivity|lia].
Qed.

Lemma rep_prev : forall q cur c cs, rep q cur (c :: cs) -> (c_prev c <= cur)%nat.
Proof. intros q cur c cs R. inversion R; subst; cbn [c_prev]; lia. Qed.

Lemma rep_more : forall q cur c cs l, rep q cur (c :: cs) ->
  Forall (fun i => c_prev c < i /\ B < i)%nat l -> rep q cur (add_pending l c :: cs).
Proof.
  intros q cur c cs l R F. inversion R; subst; cbn [c_prev] in F; unfold add_pending;
    cbn [c_prev c_kind c_pending].
  - apply r_lazy; [assumption|assumption|]. apply Forall_app. split; assumption.
  - apply r_made; try assumption. apply Forall_app. split; assumption.
Qed.

Lemma rep_outer : forall b q cur c cs, rep (b :: q) cur (c :: cs) -> rep q (c_prev c) cs.
Proof. intros b q cur c cs R. inversion R; subst; assumption. Qed.

Lemma rep_pend : forall q cur c cs, rep q cur (c :: cs) ->
  Forall (fun i => c_prev c < i /\ B < i)%nat (c_pending c).
Proof. intros q cur c cs R. inversion R; subst; assumption. Qed.

End Rep.

Lemma around_refl : forall p, around p p.
Proof. intros p. exists []. reflexivity. Qed.
Lemma around_cons : forall q b p, around q p -> around q (b :: p).
Proof. intros q b p [r ->]. exists (b :: r). reflexivity. Qed.
Lemma around_inv : forall q b p, around q (b :: p) -> q = b :: p \/ around q p.
Proof.
  intros q b p [[|x r] E]; cbn in E; [left; congruence|].
  injection E as -> ->. right. exists r. reflexivity.
Qed.
Lemma around_len : forall q p, around q p -> (length q <= length p)%nat.
Proof. intros q p [r ->]. rewrite app_length. lia. Qed.

(* What is looked at lies at or below the scope one is in. *)
Lemma rep_frame : forall B h D q cur cs, rep B h D q cur cs ->
  forall h' D', (forall i, (i <= cur)%nat -> nth_error h' i = nth_error h i) ->
  (length h <= length h')%nat ->
  (forall q1, around q1 q -> at_ D' q1 = at_ D q1) -> rep B h' D' q cur cs.
Proof.
  intros B h D q cur cs R. induction R; intros h' D' HH HL HD.
  - apply r_glob; [lia|]. rewrite HH by lia. rewrite (HD _ (around_refl _)). assumption.
  - apply r_file; [assumption| |].
    + apply IHR; [intros; apply HH; lia|assumption|]. intros q1 A. apply HD.
      apply around_cons; exact A.
    + rewrite HH by lia. rewrite (HD _ (around_refl _)). assumption.
  - apply r_arg with (cur := cur); [|assumption|assumption|].
    + apply IHR; [intros; apply HH; lia|assumption|]. intros q1 A. apply HD.
      apply around_cons; exact A.
    + rewrite HH by lia. rewrite (HD _ (around_refl _)). assumption.
  - apply r_noarg.
    + apply IHR; [exact HH|assumption|]. intros q1 A. apply HD. apply around_cons; exact A.
    + rewrite (HD _ (around_refl _)). assumption.
  - apply r_lazy; [| |assumption].
    + apply IHR; [exact HH|assumption|]. intros q1 A. apply HD. apply around_cons; exact A.
    + rewrite (HD _ (around_refl _)). assumption.
  - apply r_made; try assumption.
    + apply IHR; [intros; apply HH; lia|assumption|]. intros q1 A. apply HD.
      apply around_cons; exact A.
    + rewrite HH by lia. rewrite (HD _ (around_refl _)). assumption.
Qed.

Lemma nth_upd_same : forall A (f : A -> A) l i, nth_error (upd l i f) i = option_map f (nth_error l i).
Proof. induction l as [|x l IH]; intros [|i]; cbn; auto. Qed.
Lemma nth_upd_other : forall A (f : A -> A) l i j, i <> j -> nth_error (upd l i f) j = nth_error l j.
Proof. induction l as [|x l IH]; intros [|i] [|j] NE; cbn; auto; try congruence. Qed.
Lemma upd_length : forall A (f : A -> A) l i, length (upd l i f) = length l.
Proof. induction l as [|x l IH]; intros [|i]; cbn; auto. Qed.

Lemma at_deeper : forall D q d q1, (length q1 < length q)%nat -> at_ ((q, d) :: D) q1 = at_ D q1.
Proof.
  intros. rewrite at_cons. destruct (place_dec q q1) as [<-|]; [lia|reflexivity].
Qed.
