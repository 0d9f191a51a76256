From Coq Require Import ZArith List Bool Lia.
From Verif Require Import Tyc_Model Tyc_Spec.
Import ListNotations.
Local Open Scope Z_scope.

Lemma beq_eq : forall a b, builtin_eqb a b = true -> a = b.
Proof. intros [] []; cbn; congruence. Qed.
Lemma beq_refl : forall a, builtin_eqb a a = true.
Proof. intros []; reflexivity. Qed.

Lemma same_refl : forall t, same t t = true.
Proof.
  induction t; cbn; rewrite ?Z.eqb_refl, ?beq_refl; auto.
Qed.

Lemma same_iff : forall a b, same a b = true <-> same_type a b.
Proof.
  split.
  - revert b. induction a; intros b0 H; destruct b0; cbn in H; try discriminate;
      repeat match goal with
      | H : _ && _ = true |- _ => apply andb_prop in H as [? ?]
      | H : (_ =? _) = true |- _ => apply Z.eqb_eq in H; subst
      | H : builtin_eqb _ _ = true |- _ => apply beq_eq in H; subst
      end; constructor; auto.
  - intros H. induction H; cbn; rewrite ?Z.eqb_refl, ?beq_refl; auto.
Qed.

Lemma same_rep : forall a b, same a b = true -> rep_of a = rep_of b.
Proof.
  intros a b H; destruct a, b; cbn in H; try discriminate; auto.
  apply beq_eq in H as ->; reflexivity.
Qed.

Lemma same_width : forall a b, same a b = true -> width a = width b.
Proof.
  intros a b H; destruct a, b; cbn in H; try discriminate; auto.
  - apply beq_eq in H as ->; reflexivity.
  - apply andb_prop in H as [_ H]. apply Z.eqb_eq in H as ->. reflexivity.
Qed.

Lemma same_array : forall a b, same a b = true -> is_array a = is_array b.
Proof. intros a b H; destruct a, b; cbn in H; try discriminate; auto. Qed.

Lemma vb_accept : forall b, vb b = Accept <-> b = true.
Proof. intros []; cbn; split; congruence. Qed.

(* CheckFunction, by itself. *)
Fixpoint check_args (fs ac : list ty) : verdict :=
  match fs, ac with
  | nil, nil => Accept
  | f :: fs', a :: ac' =>
    match check_impl sig_flags Generic f a with
    | Accept => check_args fs' ac'
    | v => v
    end
  | _, _ => Refuse
  end.
Definition check_sig (f a : sig) : verdict :=
  let '(fret, fargs, fvar) := f in
  let '(aret, aargs, avar) := a in
  if negb (same fret aret) then vb (is_b BVoid fret && is_b BInt aret)
  else if negb (Bool.eqb fvar avar) then Refuse
  else if (length fargs <? length aargs)%nat then Refuse
  else check_args fargs aargs.
Fixpoint check_sigs (afn : sig) (fs : list sig) : verdict :=
  match fs with
  | nil => Refuse
  | f :: rest => match check_sig f afn with
    | Accept => Accept | Refuse => check_sigs afn rest | Broken => Broken end
  end.
Definition check_function (formal actual : ty) : verdict :=
  if is_canonical formal && is_fun actual then Accept
  else if is_b BNull actual then Accept
  else match actual with
       | TFun _ (Some asigs) =>
         match rev asigs with
         | nil => Refuse
         | afn :: _ =>
           match formal with
           | TFun _ None => Refuse
           | TFun _ (Some fsigs) => check_sigs afn fsigs
           | _ => Broken
           end
         end
       | _ => Refuse
       end.

Lemma check_impl_eq : forall fl why formal actual,
  check_impl fl why formal actual =
  match formal with
  | TArr fi fn =>
    match actual with
    | TArr ai an => vb (check_arrays fl why fi fn ai an)
    | _ => vb (check_slice fl why fi fn actual)
    end
  | _ =>
    if allow_coerce fl then check_value fl (check_function formal actual) (unref formal) (unref actual)
    else check_value fl (check_function formal actual) formal actual
  end.
Proof.
  intros fl why formal actual.
  assert (E : forall n fsigs m asigs afn l, rev asigs = afn :: l ->
    actual = TFun m (Some asigs) -> formal = TFun n (Some fsigs) ->
    check_sigs afn fsigs =
    (fix check_sigs (fs : list sig) : verdict :=
                   match fs with
                   | nil => Refuse
                   | (fret, fargs, fvar) :: rest =>
                     let '(aret, aargs, avar) := afn in
                     let one :=
                       if negb (same fret aret) then vb (is_b BVoid fret && is_b BInt aret)
                       else if negb (Bool.eqb fvar avar) then Refuse
                       else if (length fargs <? length aargs)%nat then Refuse
                       else (fix check_args (fs : list ty) (ac : list ty) : verdict :=
                   match fs, ac with
                   | nil, nil => Accept
                   | f :: fs', a :: ac' =>
                     match check_impl sig_flags Generic f a with
                     | Accept => check_args fs' ac'
                     | v => v
                     end
                   | _, _ => Refuse
                   end) fargs aargs in
                     match one with
                     | Accept => Accept
                     | Refuse => check_sigs rest
                     | Broken => Broken
                     end
                   end) fsigs).
  { intros n fsigs m asigs afn l _ _ _. destruct afn as [[aret aargs] avar].
    induction fsigs as [|[[fret fargs] fvar] rest IH]; [reflexivity|].
    cbn [check_sigs check_sig]. rewrite IH. reflexivity. }
  destruct formal as [b|k|k|k ab nu|k c|k|k [fsigs|]|t|t s]; try reflexivity.
  destruct actual as [b|k'|k'|k' ab nu|k' c|k'|k' [asigs|]|t|t s]; try reflexivity.
  cbn [check_impl unref]. unfold check_function.
  destruct (rev asigs) as [|afn l] eqn:R; [reflexivity|].
  rewrite (E _ _ _ _ _ _ R eq_refl eq_refl). destruct afn as [[aret aargs] avar]. reflexivity.
Qed.

(* ------------------------------------------------------------ values *)

Lemma on_chain_in : forall a f, on_chain a f = true ->
  exists n ab nu m ab' nu', f = TMap n ab nu /\ a = TMap m ab' nu' /\ (n = m \/ In n ab').
Proof.
  intros a f H. destruct a; cbn in H; try discriminate. destruct f; try discriminate.
  apply orb_prop in H as [H|H].
  - apply Z.eqb_eq in H as ->. do 6 eexists. split; [reflexivity|]. split; [reflexivity|]. auto.
  - apply existsb_exists in H as (x & Hi & E). apply Z.eqb_eq in E as ->.
    do 6 eexists. split; [reflexivity|]. split; [reflexivity|]. auto.
Qed.

Lemma coerces_intlike : forall t, coerces_from_int t = true <-> intlike t.
Proof.
  intros t; split; intros H.
  - destruct t as [[]| | | | | | | | ]; cbn in H; try discriminate; constructor.
  - destruct H; reflexivity.
Qed.

Ltac sp H := destruct H as [H|H].

Ltac cv := first [apply cv_null | apply cv_bool_int | apply cv_bool_char | apply cv_float_any
  | apply cv_enum_int | apply cv_map_int | apply cv_char_int | apply cv_float_int
  | apply cv_up; assumption | apply cv_int; assumption | apply cv_from_any; assumption].

Lemma check_value_converts : forall func f a,
  is_array f = false -> is_fun f = false ->
  (check_value coerce_flags func f a = Accept <-> converts f a).
Proof.
  intros func f a NA NF. unfold check_value. rewrite NF. cbn [allow_coerce func_arg coerce_flags].
  destruct (same f a) eqn:SM.
  { split; intros _; [now apply cv_same, same_iff|].
    destruct (is_struct f); reflexivity. }
  split.
  - intros H.
    destruct (is_struct f) eqn:IS; [discriminate|].
    destruct (is_object f) eqn:IO; [discriminate|].
    destruct (is_b BNull a) eqn:NU.
    { destruct a as [[]| | | | | | | | ]; cbn in NU; try discriminate.
      destruct f as [[]| | | ? ? [] | | | | | ]; cbn in H, NF; try discriminate. cv. }
    destruct (is_b BInt64 f || is_b BInt64 a) eqn:I64; [discriminate|].
    apply orb_false_elim in I64 as [F64 A64].
    destruct (is_b BAny f) eqn:AF.
    { destruct f as [[]| | | | | | | | ]; cbn in AF; try discriminate.
      apply cv_any. intros [<-|[<-|[<-|[]]]]; try discriminate NU; try discriminate A64.
      cbn in H. discriminate. }
    rewrite orb_false_r, !andb_true_l in H.
    destruct (is_b BInt f && coerces_from_int a) eqn:C1.
    { apply andb_prop in C1 as [C1 C2]. apply coerces_intlike in C2.
      destruct f as [[]| | | | | | | | ]; cbn in C1; try discriminate. cv. }
    destruct (is_b BBool f && (is_b BInt a || is_b BChar a)) eqn:C2.
    { apply andb_prop in C2 as [C2 C3].
      destruct f as [[]| | | | | | | | ]; cbn in C2; try discriminate.
      destruct a as [[]| | | | | | | | ]; cbn in C3; try discriminate; cv. }
    destruct (is_b BAny a && (coerces_from_int f || is_b BFloat f)) eqn:C3.
    { apply andb_prop in C3 as [C3 C4].
      destruct a as [[]| | | | | | | | ]; cbn in C3; try discriminate.
      apply orb_prop in C4 as [C4|C4].
      - apply coerces_intlike in C4. cv.
      - destruct f as [[]| | | | | | | | ]; cbn in C4; try discriminate. cv. }
    cbn [orb andb] in H.
    destruct (on_chain a f) eqn:OC.
    { apply on_chain_in in OC as (n & ab & nu & m & ab' & nu' & -> & -> & [-> | IN]).
      - cbn in SM. rewrite Z.eqb_refl in SM. discriminate.
      - cv. }
    destruct (is_b BInt a) eqn:IA.
    { destruct a as [[]| | | | | | | | ]; cbn in IA; try discriminate.
      destruct f as [[]| | | | | | | | ]; cbn in *; try discriminate; cv. }
    rewrite !andb_false_r in H. discriminate.
  - intros H. destruct H; [match goal with ST : same_type _ _ |- _ => apply same_iff in ST; congruence end | ..];
      cbn in SM; try rewrite Z.eqb_refl in SM; try congruence;
      try (destruct H; cbn; reflexivity); try reflexivity.
    + destruct a as [[]| | | | | | | | ]; cbn; try reflexivity; try discriminate SM;
        exfalso; apply H; cbn; auto.
    + cbn. replace (n =? m) with false by (symmetry; exact SM).
      assert (E : existsb (Z.eqb n) ab' = true) by (apply existsb_exists; exists n; split; [exact H|apply Z.eqb_refl]).
      rewrite E. reflexivity.
Qed.

Lemma coerce_converts : forall why f a,
  is_array f = false -> is_array (unref f) = false -> is_fun (unref f) = false ->
  (coerce why f a = Accept <-> converts (unref f) (unref a)).
Proof.
  intros why f a NA NU NF. unfold coerce, check. cbn [commutative coerce_flags].
  rewrite check_impl_eq. cbn [allow_coerce coerce_flags].
  assert (E : match f with
    | TArr fi fn => match a with TArr ai an => vb (check_arrays coerce_flags why fi fn ai an)
                    | _ => vb (check_slice coerce_flags why fi fn a) end
    | _ => check_value coerce_flags (check_function f a) (unref f) (unref a) end
    = check_value coerce_flags (check_function f a) (unref f) (unref a))
    by (destruct f; try reflexivity; discriminate NA).
  fold coerce_flags. rewrite E.
  rewrite <- (check_value_converts (check_function f a) _ _ NU NF).
  destruct (check_value coerce_flags (check_function f a) (unref f) (unref a)); split; congruence.
Qed.

Lemma intlike_rep : forall t, intlike t -> rep_of t = OneCell.
Proof. intros t []; reflexivity. Qed.

Lemma converts_rep : forall f a, converts f a -> f <> TBuiltin BAny -> rep_of f = rep_of a.
Proof.
  intros f a H NA. destruct H; try reflexivity; try congruence.
  - now apply same_rep, same_iff.
  - now rewrite (intlike_rep _ H).
  - now rewrite (intlike_rep _ H).
Qed.

(* ---------------------------------------------------------- functions *)

Lemma check_args_all : forall fs ac, check_args fs ac = Accept ->
  Forall2 (fun x y => check sig_flags Generic x y = Accept) fs ac.
Proof.
  induction fs as [|f fs IH]; intros [|a ac] H; cbn [check_args] in H; try discriminate; [constructor|].
  destruct (check_impl sig_flags Generic f a) eqn:E; try discriminate.
  constructor; [|auto]. unfold check. rewrite E. reflexivity.
Qed.

Lemma all_check_args : forall fs ac,
  Forall2 (fun x y => check sig_flags Generic x y = Accept) fs ac -> check_args fs ac = Accept.
Proof.
  intros fs ac H. induction H as [|f a fs ac E _ IH]; [reflexivity|].
  cbn [check_args]. unfold check in E. cbn [commutative sig_flags] in E.
  destruct (check_impl sig_flags Generic f a); try discriminate. exact IH.
Qed.

Lemma forall2_length : forall (R : ty -> ty -> Prop) l m, Forall2 R l m -> length l = length m.
Proof. intros R l m H. induction H; cbn; congruence. Qed.

Lemma check_sig_agree : forall f a, check_sig f a = Accept <-> agree f a \/ void_for_int f a.
Proof.
  intros [[fr fa] fv] [[ar aa] av]. cbn [check_sig agree]. unfold void_for_int. cbn [fst].
  destruct (same fr ar) eqn:SR; cbn [negb].
  - destruct (Bool.eqb fv av) eqn:EV; cbn [negb].
    + apply Bool.eqb_prop in EV. subst av.
      destruct (length fa <? length aa)%nat eqn:L.
      * apply Nat.ltb_lt in L. split; [discriminate|].
        intros [(_ & _ & F)|[-> ->]]; [|discriminate]. apply forall2_length in F. lia.
      * split.
        -- intros H. left. split; [now apply same_iff|]. auto using check_args_all.
        -- intros [(_ & _ & F)|[-> ->]]; [now apply all_check_args|discriminate].
    + split; [discriminate|]. intros [(_ & -> & _)|[-> ->]]; [|discriminate].
      rewrite Bool.eqb_reflx in EV. discriminate.
  - rewrite vb_accept. split.
    + intros H. right. apply andb_prop in H as [H1 H2].
      destruct fr as [[]| | | | | | | | ]; cbn in H1; try discriminate.
      destruct ar as [[]| | | | | | | | ]; cbn in H2; try discriminate. auto.
    + intros [(C & _)|[-> ->]]; [apply same_iff in C; congruence|reflexivity].
Qed.

(* Nothing fails an assertion: an induction principle reaching into the
   signatures. *)
Section Ind.
  Variable P : ty -> Prop.
  Hypothesis Hb : forall b, P (TBuiltin b).
  Hypothesis Ho : forall n, P (TObject n).
  Hypothesis He : forall n, P (TEnum n).
  Hypothesis Hm : forall n ab nu, P (TMap n ab nu).
  Hypothesis Hs : forall n c, P (TStruct n c).
  Hypothesis Hp : forall n, P (TPstruct n).
  Hypothesis Hn : forall n, P (TFun n None).
  Hypothesis Hf : forall n l,
    (forall r args v, In (r, args, v) l -> forall t, In t args -> P t) -> P (TFun n (Some l)).
  Hypothesis Hr : forall t, P t -> P (TRef t).
  Hypothesis Ha : forall t n, P t -> P (TArr t n).
  Fixpoint ty_ind2 (t : ty) : P t :=
    match t with
    | TBuiltin b => Hb b
    | TObject n => Ho n
    | TEnum n => He n
    | TMap n ab nu => Hm n ab nu
    | TStruct n c => Hs n c
    | TPstruct n => Hp n
    | TFun n None => Hn n
    | TFun n (Some l) =>
      Hf n l ((fix sigs (l : list sig) : forall r args v, In (r, args, v) l -> forall t, In t args -> P t :=
        match l with
        | nil => fun r args v (H : In _ nil) => False_ind _ H
        | s :: l' => fun r args v H =>
          match H with
          | or_introl E =>
            eq_ind s (fun q : sig => forall t, In t (snd (fst q)) -> P t)
              ((match s as q return forall t, In t (snd (fst q)) -> P t with
                | (r', args', v') =>
                  (fix all (l : list ty) : forall t, In t l -> P t :=
                     match l with
                     | nil => fun t (H : In t nil) => False_ind _ H
                     | x :: l'' => fun t H =>
                       match H with
                       | or_introl E => eq_ind x P (ty_ind2 x) t E
                       | or_intror H' => all l'' t H'
                       end
                     end) args'
                end)) (r, args, v) E
          | or_intror H' => sigs l' r args v H'
          end
        end) l)
    | TRef t => Hr t (ty_ind2 t)
    | TArr t n => Ha t n (ty_ind2 t)
    end.
End Ind.

Lemma check_value_broken : forall fl func f a,
  check_value fl func f a = Broken -> is_fun f = true /\ func = Broken.
Proof.
  intros fl func f a H. unfold check_value in H.
  assert (V : forall b, vb b <> Broken) by (intros []; discriminate).
  repeat match type of H with
  | (if ?c then _ else _) = Broken => destruct c eqn:?; try discriminate; try (exfalso; exact (V _ H))
  end; auto.
  exfalso. destruct f as [| | | ? ? n | | | | | ]; try discriminate. exact (V _ H).
Qed.

Lemma vb_not_broken : forall b, vb b = Broken -> False.
Proof. intros []; discriminate. Qed.

Lemma function_not_broken : forall f a,
  is_fun f = true ->
  (forall n l, f = TFun n (Some l) -> forall r args v, In (r, args, v) l ->
     forall t, In t args -> forall b, check_impl sig_flags Generic t b <> Broken) ->
  check_function f a <> Broken.
Proof.
  intros f a FF IH H. destruct f as [| | | | | |n [l|]| |]; try discriminate FF.
  2:{ unfold check_function in H. destruct a as [[]| | | | | |m [asigs|]| |]; cbn in H; discriminate. }
  specialize (IH n l eq_refl). unfold check_function in H. cbn [is_canonical andb] in H.
  destruct a as [[]| | | | | |m [asigs|]| |]; cbn [is_b builtin_eqb] in H; try discriminate.
  destruct (rev asigs) as [|afn rs]; [discriminate|]. clear rs asigs.
  assert (AR : forall args, (forall t, In t args -> forall b, check_impl sig_flags Generic t b <> Broken) ->
     forall ac, check_args args ac <> Broken).
  { induction args as [|x args IHa]; intros X ac; destruct ac as [|y ac]; cbn [check_args]; try discriminate.
    destruct (check_impl sig_flags Generic x y) eqn:E; try discriminate.
    - apply IHa. intros t I. apply X. now right.
    - exfalso. apply (X x (or_introl eq_refl) y). exact E. }
  clear FF. revert IH H. induction l as [|[[r args] v] l IHl]; intros IH H; cbn [check_sigs] in H; [discriminate|].
  assert (C : check_sig (r, args, v) afn <> Broken).
  { destruct afn as [[ar aa] av]. cbn [check_sig].
    destruct (negb (same r ar)); [intros C; exact (vb_not_broken _ C)|].
    destruct (negb (Bool.eqb v av)); [discriminate|].
    destruct (length args <? length aa)%nat; [discriminate|].
    apply AR. exact (IH r args v (or_introl eq_refl)). }
  destruct (check_sig (r, args, v) afn); [discriminate| |congruence].
  apply IHl; [|exact H]. intros. eapply IH; [right; eassumption|eassumption].
Qed.

Lemma sig_never_broken : forall f a, check_impl sig_flags Generic f a <> Broken.
Proof.
  intros f. induction f using ty_ind2; intros a B; rewrite check_impl_eq in B;
    cbn [allow_coerce sig_flags] in B;
    try (apply check_value_broken in B as [B1 B2]; try discriminate B1).
  - revert B2. apply function_not_broken; [reflexivity|]. discriminate.
  - revert B2. apply function_not_broken; [reflexivity|].
    intros n0 l0 [= -> ->] r args v I t It. exact (H r args v I t It).
  - destruct a; exact (vb_not_broken _ B).
Qed.

Lemma impl_broken : forall fl why f a, check_impl fl why f a = Broken ->
  exists n s, f = TRef (TFun n s).
Proof.
  intros fl why f a B. rewrite check_impl_eq in B.
  destruct f as [b|k|k|k ab nu|k c|k|k s|t|t n].
  9:{ exfalso. destruct a; exact (vb_not_broken _ B). }
  8:{ destruct (allow_coerce fl) eqn:AC.
      - apply check_value_broken in B as [B1 B2]. cbn in B1. destruct t; try discriminate. eauto.
      - apply check_value_broken in B as [B1 _]. discriminate. }
  all: exfalso; destruct (allow_coerce fl); apply check_value_broken in B as [B1 B2]; try discriminate B1;
    cbn [unref] in *; revert B2; (apply function_not_broken; [reflexivity|]);
    intros; apply sig_never_broken.
Qed.

Lemma check_broken : forall fl why f a, check fl why f a = Broken ->
  (exists n s, f = TRef (TFun n s)) \/ commutative fl = true /\ (exists n s, a = TRef (TFun n s)).
Proof.
  intros fl why f a B. unfold check in B.
  destruct (check_impl fl why f a) eqn:E; try discriminate.
  - destruct (commutative fl); [|discriminate]. right. split; [reflexivity|].
    exact (impl_broken _ _ _ _ B).
  - left. exact (impl_broken _ _ _ _ E).
Qed.

(* What a function value is accepted for. *)
Lemma coerce_function : forall why n l m asigs afn rest,
  rev asigs = afn :: rest -> n <> m ->
  (coerce why (TFun n (Some l)) (TFun m (Some asigs)) = Accept <->
   exists f, In f l /\ (agree f afn \/ void_for_int f afn)).
Proof.
  intros why n l m asigs afn rest R NE. unfold coerce, check. cbn [commutative coerce_flags].
  rewrite check_impl_eq. cbn [allow_coerce coerce_flags unref].
  unfold check_value. cbn [is_struct same is_object is_b is_fun allow_coerce coerce_flags orb andb coerces_from_int is_enum is_map].
  apply Z.eqb_neq in NE. rewrite NE. unfold check_function. cbn [is_canonical andb is_b].
  rewrite R.
  assert (NB : forall f, check_sig f afn <> Broken).
  { intros f H. destruct f as [[r args] v]. destruct afn as [[ar aa] av]. cbn [check_sig] in H.
    destruct (negb (same r ar)); [exact (vb_not_broken _ H)|].
    destruct (negb (Bool.eqb v av)); [discriminate|].
    destruct (length args <? length aa)%nat; [discriminate|].
    clear R. revert aa H. clear. induction args as [|x args IH]; intros [|y aa]; cbn [check_args]; try discriminate.
    destruct (check_impl sig_flags Generic x y) eqn:E; try discriminate; [apply IH|].
    intros _. exact (sig_never_broken _ _ E). }
  assert (E : check_sigs afn l = Accept <-> exists f, In f l /\ (agree f afn \/ void_for_int f afn)).
  { induction l as [|f l IH]; cbn [check_sigs].
    - split; [discriminate|]. intros (f & [] & _).
    - destruct (check_sig f afn) eqn:C.
      + split; [|reflexivity]. intros _. exists f. split; [now left|]. now apply check_sig_agree.
      + rewrite IH. split.
        * intros (g & I & A). exists g. split; [now right|exact A].
        * intros (g & [<- |I] & A); [|eauto].
          apply check_sig_agree in A. congruence.
      + destruct (NB _ C). }
  destruct (check_sigs afn l) eqn:CS; rewrite <- E; split; congruence.
Qed.

(* ------------------------------------------------------------- arrays *)

Lemma cell_width : forall t, has_cell_size t = true -> t <> TBuiltin BInt64 -> width t = 4.
Proof.
  intros t H N. destruct t as [[]| | | | | | | | ]; cbn in H; try discriminate; try reflexivity. congruence.
Qed.

Lemma is_b_eq : forall b t, is_b b t = true -> t = TBuiltin b.
Proof. intros b t H. destruct t as [x| | | | | | | | ]; cbn in H; try discriminate. now rewrite (beq_eq _ _ H). Qed.

Lemma arrays_dims : forall fl why fi fn ai an,
  check_arrays fl why fi fn ai an = true -> elt fi <> TBuiltin BAny ->
  dims fi = dims ai.
Proof.
  intros fl why fi. induction fi; intros fn ai an H NA; cbn [check_arrays] in H;
    apply andb_prop in H as [_ H]; cbn [dims elt] in *.
  9:{ destruct ai as [ | | | | | | | |ai' an']; try discriminate. cbn [dims]. f_equal. eauto. }
  all: destruct ai as [[]| | | | | | | |ai' an']; try reflexivity; exfalso; cbn in H;
    rewrite ?andb_false_r, ?orb_false_r in H; try discriminate H.
  destruct b; try congruence; cbn in H; rewrite ?andb_false_r in H; discriminate.
Qed.

Lemma arrays_elt : forall fl why fi fn ai an,
  check_arrays fl why fi fn ai an = true -> not_mixed fi ai ->
  is_array fi = false -> is_array ai = false /\ width fi = width ai.
Proof.
  intros fl why fi fn ai an H (D & M1 & M2) NA.
  assert (DA : is_array ai = false).
  { destruct fi; try discriminate NA; destruct ai; try reflexivity; cbn in D; discriminate. }
  split; [exact DA|].
  assert (Ef : elt fi = fi) by (destruct fi; try reflexivity; discriminate).
  assert (Ea : elt ai = ai) by (destruct ai; try reflexivity; discriminate).
  rewrite Ef, Ea in *.
  assert (H' : same fi ai
    || func_arg fl && (is_b BAny fi && has_cell_size ai || is_b BAny ai && has_cell_size fi)
    || match why with Argument => allow_coerce fl | _ => false end
       && ((is_enum ai || is_map ai) && is_b BInt fi
           || is_b BAny fi && has_cell_size ai
           || is_b BAny ai && has_cell_size fi) = true).
  { destruct fi; try discriminate NA; cbn [check_arrays] in H; apply andb_prop in H as [_ H]; exact H. }
  clear H. rename H' into H.
  assert (A1 : is_b BAny fi && has_cell_size ai = true -> width fi = width ai).
  { intros X. apply andb_prop in X as [X Y]. apply is_b_eq in X as ->. cbn.
    symmetry. apply cell_width; auto. }
  assert (A2 : is_b BAny ai && has_cell_size fi = true -> width fi = width ai).
  { intros X. apply andb_prop in X as [X Y]. apply is_b_eq in X as ->. cbn.
    apply cell_width; auto. }
  apply orb_prop in H as [H|H]; [apply orb_prop in H as [H|H]|].
  - now apply same_width.
  - apply andb_prop in H as [_ H]. apply orb_prop in H as [H|H]; auto.
  - apply andb_prop in H as [_ H]. apply orb_prop in H as [H|H]; [apply orb_prop in H as [H|H]|]; auto.
    apply andb_prop in H as [H1 H2]. apply is_b_eq in H2 as ->.
    destruct ai; cbn in H1; try discriminate; reflexivity.
Qed.

Lemma arrays_fit : forall fl why fi fn ai an,
  check_arrays fl why fi fn ai an = true ->
  not_mixed fi ai -> elt ai <> TBuiltin BChar ->
  fits (TArr fi fn) (TArr ai an).
Proof.
  intros fl why fi. induction fi; intros fn ai an H NM NC.
  9:{ cbn [check_arrays] in H. apply andb_prop in H as [HS H].
      destruct ai as [ | | | | | | | |ai' an']; try discriminate.
      constructor.
      - destruct (fn =? 0) eqn:Z0; [left; lia|].
        cbn [is_char_array is_b] in HS. rewrite andb_false_r in HS. right; lia.
      - apply IHfi; auto. unfold not_mixed in *. cbn [dims elt] in NM. intuition congruence. }
  all: destruct (arrays_elt _ _ _ _ _ _ H NM eq_refl) as [DA W];
    (constructor; [|apply fits_elt; auto]);
    cbn [check_arrays] in H; apply andb_prop in H as [HS _];
    (destruct (fn =? 0) eqn:Z0; [left; lia|]);
    (assert (NCA : is_char_array ai = false);
     [ destruct (is_char_array ai) eqn:E; [|reflexivity]; unfold is_char_array in E; apply is_b_eq in E; subst ai;
       cbn [elt] in NC; congruence
     | rewrite NCA, andb_false_r in HS; right; lia ]).
Qed.

Lemma arrays_fit_string : forall fl why fi fn ai an,
  check_arrays fl why fi fn ai an = true -> ternary fl = false ->
  dims fi = dims ai -> elt fi = TBuiltin BChar ->
  fits_string (TArr fi fn) (TArr ai an).
Proof.
  intros fl why fi. induction fi; intros fn ai an H NT D EC.
  9:{ cbn [check_arrays] in H. apply andb_prop in H as [HS H].
      destruct ai as [ | | | | | | | |ai' an']; try discriminate.
      apply fs_dim.
      - destruct (fn =? 0) eqn:Z0; [left; lia|].
        cbn [is_char_array is_b] in HS. rewrite andb_false_r in HS. right; lia.
      - apply IHfi; auto. }
  all: cbn [elt] in EC; try discriminate EC. injection EC as ->.
  cbn [check_arrays] in H. apply andb_prop in H as [HS H].
  assert (E : ai = TBuiltin BChar).
  { destruct ai as [[]| | | | | | | | ]; try reflexivity; cbn in H;
      rewrite ?andb_false_r, ?andb_false_l in H; cbn in H; rewrite ?andb_false_r in H; discriminate. }
  subst ai. apply fs_last. rewrite NT in HS. cbn [is_char_array is_b builtin_eqb] in HS.
  destruct (fn =? 0) eqn:Z0; [left; lia|]. right.
  rewrite orb_false_r, andb_true_r in HS. destruct (allow_coerce fl); cbn in HS; lia.
Qed.

Lemma arrays_char : forall fl why fi fn ai an,
  check_arrays fl why fi fn ai an = true -> dims fi = dims ai ->
  elt ai = TBuiltin BChar -> elt fi = TBuiltin BChar.
Proof.
  intros fl why fi. induction fi; intros fn ai an H D; cbn [check_arrays] in H;
    apply andb_prop in H as [_ H].
  9:{ destruct ai as [ | | | | | | | |ai' an']; try discriminate. cbn [elt dims] in *. eauto. }
  all: destruct ai; try discriminate D; cbn [elt]; intros E; try discriminate E; injection E as ->;
    cbn in H; rewrite ?andb_false_r, ?orb_false_r in H; cbn in H; rewrite ?andb_false_r in H;
    try discriminate H.
  destruct b; try reflexivity; cbn in H; rewrite ?andb_false_r in H; discriminate.
Qed.

(* ---------------------------------------------------------- together *)

Lemma function_accept_rep : forall f a, check_function f a = Accept ->
  rep_of (unref a) = OneCell.
Proof.
  intros f a H. unfold check_function in H.
  destruct a as [[]| | | | | |m s| |]; cbn in H |- *; try reflexivity;
    rewrite ?andb_false_r in H; discriminate.
Qed.

Lemma coerce_impl : forall why f a, coerce why f a = Accept ->
  check_impl coerce_flags why f a = Accept.
Proof.
  intros why f a H. unfold coerce, check in H. cbn [commutative coerce_flags] in H. fold coerce_flags in H.
  destruct (check_impl coerce_flags why f a); congruence.
Qed.

Lemma coerce_rep : forall why f a,
  is_array f = false -> is_array (unref f) = false -> unref f <> TBuiltin BAny ->
  coerce why f a = Accept -> rep_of (unref f) = rep_of (unref a).
Proof.
  intros why f a NA NU NY H. destruct (is_fun (unref f)) eqn:FF.
  - apply coerce_impl in H. rewrite check_impl_eq in H. cbn [allow_coerce coerce_flags] in H.
    assert (H' : check_value coerce_flags (check_function f a) (unref f) (unref a) = Accept)
      by (destruct f; try exact H; discriminate NA).
    clear H. rename H' into H. unfold check_value in H. rewrite FF in H.
    assert (E : rep_of (unref f) = OneCell) by (destruct (unref f); try discriminate FF; reflexivity).
    assert (IS : is_struct (unref f) = false) by (destruct (unref f); try discriminate FF; reflexivity).
    rewrite IS in H.
    destruct (same (unref f) (unref a)) eqn:SM; [now apply same_rep|].
    destruct (is_object (unref f)); [discriminate|].
    destruct (is_b BNull (unref a)) eqn:NN; [apply is_b_eq in NN; rewrite NN; exact E|].
    destruct (is_b BInt64 (unref f) || is_b BInt64 (unref a)); [discriminate|].
    assert (C : forall b, is_b b (unref f) = false) by (intros; destruct (unref f); try discriminate FF; reflexivity).
    assert (D : coerces_from_int (unref f) = false) by (destruct (unref f); try discriminate FF; reflexivity).
    rewrite !C, D in H. cbn [orb andb allow_coerce coerce_flags] in H. rewrite ?andb_false_r in H.
    rewrite E. symmetry. exact (function_accept_rep _ _ H).
  - apply coerce_converts in H; auto. now apply converts_rep.
Qed.

Lemma coerce_arrays_fit : forall why fi fn a,
  coerce why (TArr fi fn) a = Accept ->
  not_mixed (TArr fi fn) (as_array a) -> elt fi <> TBuiltin BChar ->
  fits (TArr fi fn) (as_array a).
Proof.
  intros why fi fn a H NM NC. apply coerce_impl in H. rewrite check_impl_eq in H.
  destruct a as [ | | | |n cells| | | |ai an]; try (apply vb_accept in H; unfold check_slice in H;
    rewrite ?andb_false_r in H; discriminate).
  - apply vb_accept in H. unfold check_slice in H. apply andb_prop in H as [H1 H2].
    apply andb_prop in H1 as [_ H1]. apply andb_prop in H2 as [H2 H3].
    apply is_b_eq in H3 as ->. cbn [as_array]. constructor; [|constructor; reflexivity].
    apply orb_prop in H2 as [H2|H2]; apply Z.eqb_eq in H2; auto.
  - apply vb_accept in H. cbn [as_array] in *.
    assert (D : dims fi = dims ai) by (destruct NM as [D _]; cbn in D; congruence).
    apply (arrays_fit coerce_flags why); auto.
    + unfold not_mixed in *. cbn [elt] in NM. tauto.
    + intros E. apply NC. exact (arrays_char _ _ _ _ _ _ H D E).
Qed.

Lemma coerce_arrays_fit_string : forall why fi fn a,
  coerce why (TArr fi fn) a = Accept -> elt fi = TBuiltin BChar ->
  fits_string (TArr fi fn) a.
Proof.
  intros why fi fn a H EC. apply coerce_impl in H. rewrite check_impl_eq in H.
  destruct a as [ | | | |n cells| | | |ai an]; try (apply vb_accept in H; unfold check_slice in H;
    rewrite ?andb_false_r in H; discriminate).
  - apply vb_accept in H. unfold check_slice in H. apply andb_prop in H as [_ H2].
    apply andb_prop in H2 as [_ H3]. apply is_b_eq in H3. subst fi. discriminate EC.
  - apply vb_accept in H. apply (arrays_fit_string coerce_flags why); auto.
    apply (arrays_dims _ _ _ _ _ _ H). congruence.
Qed.

Lemma coerce_dims : forall why fi fn a,
  coerce why (TArr fi fn) a = Accept -> elt fi <> TBuiltin BAny -> dims (TArr fi fn) = dims a.
Proof.
  intros why fi fn a H EC. apply coerce_impl in H. rewrite check_impl_eq in H.
  destruct a as [ | | | |n cells| | | |ai an]; try (apply vb_accept in H; unfold check_slice in H;
    rewrite ?andb_false_r in H; discriminate).
  - apply vb_accept in H. unfold check_slice in H. apply andb_prop in H as [_ H2].
    apply andb_prop in H2 as [_ H3]. apply is_b_eq in H3. subst fi. destruct EC; reflexivity.
  - apply vb_accept in H. cbn [dims]. f_equal. exact (arrays_dims _ _ _ _ _ _ H EC).
Qed.

Lemma coerce_self : forall why t, coerce why t t = Accept.
Proof.
  intros why t. unfold coerce, check. cbn [commutative coerce_flags]. fold coerce_flags.
  assert (E : check_impl coerce_flags why t t = Accept); [|now rewrite E].
  rewrite check_impl_eq.
  destruct t; cbn [allow_coerce coerce_flags];
    try (unfold check_value; rewrite same_refl; destruct (is_struct _); reflexivity).
  apply vb_accept. revert size. induction t; intros s; cbn [check_arrays];
    (apply andb_true_intro; split; [|]).
  all: try (rewrite same_refl; reflexivity).
  all: try (cbn; destruct (s =? 0); [reflexivity|]; rewrite ?andb_false_r; rewrite ?Z.eqb_refl; reflexivity).
  - destruct (s =? 0); [reflexivity|]. destruct (_ && _); [|apply Z.eqb_refl].
    rewrite Z.ltb_irrefl. apply orb_true_r.
  - apply IHt.
Qed.

Lemma sig_rep : forall f a, check sig_flags Generic f a = Accept ->
  f <> TBuiltin BAny -> rep_of f = rep_of a.
Proof.
  intros f a H NY. unfold check in H. cbn [commutative sig_flags] in H. fold sig_flags in H.
  assert (H' : check_impl sig_flags Generic f a = Accept) by (destruct (check_impl sig_flags Generic f a); congruence).
  clear H. rename H' into H. rewrite check_impl_eq in H. cbn [allow_coerce sig_flags] in H.
  destruct (is_array f) eqn:AF.
  { destruct f as [ | | | | | | | |fi fn]; try discriminate AF.
    destruct a; try (apply vb_accept in H; unfold check_slice in H; discriminate H). reflexivity. }
  assert (H' : check_value sig_flags (check_function f a) f a = Accept)
    by (destruct f; try exact H; discriminate AF).
  clear H. rename H' into H. unfold check_value in H.
  destruct (is_struct f) eqn:IS; [apply vb_accept in H; now apply same_rep|].
  destruct (same f a) eqn:SM; [now apply same_rep|].
  destruct (is_object f); [discriminate|].
  destruct (is_b BNull a) eqn:NN.
  { apply is_b_eq in NN as ->. destruct f; try discriminate H; reflexivity. }
  destruct (is_b BInt64 f || is_b BInt64 a); [discriminate|].
  cbn [allow_coerce func_arg sig_flags orb andb] in H.
  destruct (is_b BAny f) eqn:AY; [apply is_b_eq in AY; congruence|].
  destruct (is_fun f) eqn:FF.
  { assert (E : rep_of f = OneCell) by (destruct f; try discriminate FF; reflexivity).
    rewrite E. symmetry.
    pose proof (function_accept_rep _ _ H) as R. destruct a; try exact R.
    exfalso. unfold check_function in H. rewrite andb_false_r in H. cbn in H. discriminate. }
  destruct (on_chain a f) eqn:O1.
  { apply on_chain_in in O1 as (n & ab & nu & m & ab' & nu' & -> & -> & _). reflexivity. }
  destruct (on_chain f a) eqn:O2.
  { apply on_chain_in in O2 as (n & ab & nu & m & ab' & nu' & -> & -> & _). reflexivity. }
  destruct ((is_enum f || is_map f) && is_b BInt a) eqn:EI; [|discriminate].
  apply andb_prop in EI as [E1 E2]. apply is_b_eq in E2 as ->.
  destruct f; cbn in E1; try discriminate; reflexivity.
Qed.

Lemma sig_fit : forall fi fn a, check sig_flags Generic (TArr fi fn) a = Accept ->
  not_mixed (TArr fi fn) a ->
  (elt fi <> TBuiltin BChar -> fits (TArr fi fn) a) /\
  (elt fi = TBuiltin BChar -> fits_string (TArr fi fn) a).
Proof.
  intros fi fn a H NM. unfold check in H. cbn [commutative sig_flags] in H. fold sig_flags in H.
  assert (H' : check_impl sig_flags Generic (TArr fi fn) a = Accept)
    by (destruct (check_impl sig_flags Generic (TArr fi fn) a); congruence).
  clear H. rename H' into H. rewrite check_impl_eq in H.
  destruct a as [ | | | | | | | |ai an];
    try (apply vb_accept in H; unfold check_slice in H; discriminate H).
  apply vb_accept in H.
  assert (D : dims fi = dims ai) by (destruct NM as [D _]; cbn in D; congruence).
  split; intros C.
  - apply (arrays_fit sig_flags Generic); auto.
    + unfold not_mixed in *. cbn [elt] in NM. tauto.
    + intros E. apply C. exact (arrays_char _ _ _ _ _ _ H D E).
  - now apply (arrays_fit_string sig_flags Generic).
Qed.

Lemma coerce_broken : forall why f a, coerce why f a = Broken -> exists n s, f = TRef (TFun n s).
Proof.
  intros why f a H. destruct (check_broken _ _ _ _ H) as [E|[E _]]; [exact E|discriminate].
Qed.
