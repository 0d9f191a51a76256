From Coq Require Import ZifyBool.
From Verif Require Import Base Base_Proofs Rt_Model Lex_Model Lex_Spec.

Section L.
Variable strict : bool.

Lemma peek_cons c l : peek (c :: l) = LGood c (c :: l) [].
Proof. reflexivity. Qed.
Lemma advance_cons c d l : advance strict (c :: d :: l) = LGood c (d :: l) [].
Proof. reflexivity. Qed.
Lemma advance_ne c l : l <> [] -> advance strict (c :: l) = LGood c l [].
Proof. destruct l; [congruence|reflexivity]. Qed.
Lemma match_yes c l : l <> [] -> match_char strict c (c :: l) = LGood true l [].
Proof. intros H. unfold match_char. rewrite peek_cons. cbn [lbind]. rewrite Z.eqb_refl. now rewrite advance_ne. Qed.
Lemma match_no c d l : c <> d -> match_char strict c (d :: l) = LGood false (d :: l) [].
Proof. intros H. unfold match_char. rewrite peek_cons. cbn [lbind]. destruct (d =? c) eqn:E; [lia|reflexivity]. Qed.

Lemma digit_of_spec base c d : base <= 16 -> digit_char base c d -> digit_of c = d /\ 0 <= d < base /\ c <> 95 /\ alphanum c = true.
Proof.
  intros B (D & H). unfold digit_of, alphanum, is_alpha, is_digit.
  destruct H as [(R & ->)|[(R & ->)|(R & ->)]].
  - replace ((48 <=? c) && (c <=? 57)) with true by lia. lia.
  - replace ((48 <=? c) && (c <=? 57)) with false by lia. replace ((65 <=? c) && (c <=? 70)) with false by lia.
    replace ((97 <=? c) && (c <=? 102)) with true by lia. lia.
  - replace ((48 <=? c) && (c <=? 57)) with false by lia. replace ((65 <=? c) && (c <=? 70)) with true by lia. lia.
Qed.
Lemma digit_char_of base c : 0 <= digit_of c < base -> digit_char base c (digit_of c).
Proof.
  unfold digit_of, digit_char, is_digit. intros H.
  destruct ((48 <=? c) && (c <=? 57)) eqn:A; [lia|]. destruct ((65 <=? c) && (c <=? 70)) eqn:B; [lia|].
  destruct ((97 <=? c) && (c <=? 102)) eqn:C; lia.
Qed.
Lemma not_digit c : alphanum c = false -> digit_of c = -1 /\ c <> 95.
Proof.
  unfold alphanum, digit_of, is_alpha, is_digit. intros H.
  destruct ((48 <=? c) && (c <=? 57)) eqn:A; [lia|]. destruct ((65 <=? c) && (c <=? 70)) eqn:B; [lia|].
  destruct ((97 <=? c) && (c <=? 102)) eqn:C; lia.
Qed.

Notation step base := (fun v d => v * base + d).
Lemma fold_grows base ds : 2 <= base -> Forall (fun d => 0 <= d) ds -> forall v, 0 <= v -> v <= fold_left (step base) ds v.
Proof.
  intros B. induction 1; intros v V; cbn [fold_left]; [lia|]. assert (v <= v * base + x) by nia. specialize (IHForall (v * base + x) ltac:(nia)). lia.
Qed.
Lemma spelled_nonneg base t ds : base <= 16 -> spelled base t ds -> Forall (fun d => 0 <= d) ds.
Proof. intros B. induction 1; auto. constructor; [|auto]. destruct (digit_of_spec _ _ _ B H). lia. Qed.

(* One step of the loop, away from the end. *)
Lemma digits_sep base c l v n e ok : digits strict base (95 :: c :: l) v n e ok = digits strict base (c :: l) v n e ok.
Proof. reflexivity. Qed.
Lemma digits_digit base c d x l v n e ok : base <= 16 -> digit_char base c d ->
  digits strict base (c :: x :: l) v n e ok =
    if U64 <=? v * base then LGood (v, n) (x :: l) (135 :: e)
    else if U64 <=? v * base + d then LGood (v * base, n) (x :: l) (135 :: e)
    else digits strict base (x :: l) (v * base + d) (n + 1) e ok.
Proof.
  intros B D. destruct (digit_of_spec _ _ _ B D) as (E & R & N & _).
  change (digits strict base (c :: x :: l) v n e ok) with
    (if c =? 95 then digits strict base (x :: l) v n e ok
     else if digit_of c <? 0 then LGood (v, n) (c :: x :: l) e
     else if base <=? digit_of c then digits strict base (x :: l) v n (if ok then 86 :: e else e) false
        else if U64 <=? v * base then LGood (v, n) (x :: l) (135 :: e)
        else if U64 <=? v * base + digit_of c then LGood (v * base, n) (x :: l) (135 :: e)
        else digits strict base (x :: l) (v * base + digit_of c) (n + 1) e ok).
  rewrite E. replace (c =? 95) with false by lia. replace (d <? 0) with false by lia. replace (base <=? d) with false by lia. reflexivity.
Qed.
Lemma digits_stop base c l v n e ok : digit_of c = -1 -> c <> 95 -> digits strict base (c :: l) v n e ok = LGood (v, n) (c :: l) e.
Proof. intros D N. cbn [digits]. replace (c =? 95) with false by lia. rewrite D. reflexivity. Qed.

Lemma digits_good base t ds rest e ok : 2 <= base <= 16 -> spelled base t ds ->
  (exists c more, rest = c :: more /\ digit_of c = -1 /\ c <> 95) -> forall v n, 0 <= v -> fold_left (step base) ds v < U64 ->
  digits strict base (t ++ rest) v n e ok = LGood (fold_left (step base) ds v, n + Z.of_nat (length ds)) rest e.
Proof.
  intros B S (c & more & -> & D & N). induction S as [|t ds S IH|x d t ds X S IH]; intros v n V F.
  - cbn [app fold_left length]. rewrite digits_stop by assumption. f_equal. f_equal. lia.
  - rewrite <- (IH v n V F). destruct t; reflexivity.
  - cbn [fold_left] in F. destruct (digit_of_spec _ _ _ (proj2 B) X) as (_ & R & _).
    assert (G : v * base + d < U64).
    { pose proof (fold_grows base ds (proj1 B) (spelled_nonneg _ _ _ (proj2 B) S) (v * base + d) ltac:(nia)). lia. }
    assert (W : exists y l, t ++ c :: more = y :: l) by (destruct t; cbn [app]; eauto). destruct W as (y & l & W).
    cbn [app]. rewrite W, (digits_digit base x d y l v n e ok (proj2 B) X), <- W.
    replace (U64 <=? v * base) with false by lia. replace (U64 <=? v * base + d) with false by lia.
    rewrite IH by (try nia; exact F). cbn [fold_left length]. f_equal. f_equal. lia.
Qed.
Lemma digits_big base t ds rest ok : 2 <= base <= 16 -> spelled base t ds -> rest <> [] ->
  forall v n e, 0 <= v < U64 -> U64 <= fold_left (step base) ds v -> exists r l, digits strict base (t ++ rest) v n e ok = LGood r l (135 :: e) /\ l <> [].
Proof.
  intros B S NE. induction S as [|t ds S IH|x d t ds X S IH]; intros v n e V F.
  - cbn [fold_left] in F. lia.
  - destruct (IH v n e V F) as (r & l & E & L). exists r, l. split; [|exact L]. rewrite <- E. cbn [app].
    destruct (t ++ rest) eqn:W; [|reflexivity]. destruct t, rest; cbn [app] in W; congruence.
  - cbn [fold_left] in F. destruct (digit_of_spec _ _ _ (proj2 B) X) as (_ & R & _).
    assert (W : exists y l, t ++ rest = y :: l) by (destruct t, rest; cbn [app]; eauto; congruence). destruct W as (y & l & W).
    cbn [app]. rewrite W, (digits_digit base x d y l v n e ok (proj2 B) X).
    destruct (U64 <=? v * base) eqn:A; [eexists _, _; split; [reflexivity|discriminate]|].
    destruct (U64 <=? v * base + d) eqn:A2; [eexists _, _; split; [reflexivity|discriminate]|].
    rewrite <- W. apply IH; [nia|exact F].
Qed.
(* Digits read without a message are the digits of the text. *)
Lemma digits_sound base l : 2 <= base <= 16 -> forall v n e ok v' n' rest e', digits strict base l v n e ok = LGood (v', n') rest e' ->
  0 <= v < U64 -> (e = [] -> ok = true) -> e' = [] ->
  e = [] /\ exists t ds, l = t ++ rest /\ spelled base t ds /\ v' = fold_left (step base) ds v /\ n' = n + Z.of_nat (length ds) /\ 0 <= v' < U64 /\
    exists c more, rest = c :: more /\ digit_of c = -1 /\ c <> 95.
Proof.
  intros B. induction l as [|c l IH]; intros v n e ok v' n' rest e' H V K E; [discriminate|]. cbn [digits] in H.
  assert (NX : forall k : lres (Z * Z), (match l with [] => if strict then LUndef UBAssert else k | _ => k end = LGood (v', n') rest e') -> k = LGood (v', n') rest e').
  { intros k. destruct l; [|auto]. destruct strict; [discriminate|auto]. }
  destruct (c =? 95) eqn:C.
  - apply NX in H. destruct (IH _ _ _ _ _ _ _ _ H V K E) as (-> & t & ds & -> & S & R). split; [reflexivity|].
    exists (95 :: t), ds. apply Z.eqb_eq in C. subst c. split; [reflexivity|]. split; [now constructor|exact R].
  - assert (LB : -1 <= digit_of c). { unfold digit_of, is_digit. destruct ((48 <=? c) && (c <=? 57)) eqn:A1; [lia|]. destruct ((65 <=? c) && (c <=? 70)) eqn:A2; [lia|]. destruct ((97 <=? c) && (c <=? 102)) eqn:A3; lia. }
    destruct (digit_of c <? 0) eqn:D.
    + injection H as <- <- <- <-. split; [exact E|]. exists [], []. repeat split; try reflexivity; try constructor; try lia. cbn [length]. lia.
      exists c, l. split; [reflexivity|]. lia.
    + apply NX in H. destruct (base <=? digit_of c) eqn:D2.
      { destruct e as [|e0 e1].
        - rewrite (K eq_refl) in H. destruct (IH _ _ _ _ _ _ _ _ H V ltac:(discriminate) E) as (X & _). discriminate X.
        - assert (X : (if ok then 86 :: e0 :: e1 else e0 :: e1) = []).
          { refine (proj1 (IH _ _ _ _ _ _ _ _ H V _ E)). intros Y. destruct ok; discriminate Y. }
          destruct ok; discriminate X. }
      destruct (U64 <=? v * base) eqn:A; [injection H as <- <- <- <-; discriminate|].
      destruct (U64 <=? v * base + digit_of c) eqn:A2; [injection H as <- <- <- <-; discriminate|].
      destruct (IH _ _ _ _ _ _ _ _ H ltac:(nia) K E) as (-> & t & ds & -> & S & F & N & R). split; [reflexivity|].
      exists (c :: t), (digit_of c :: ds). split; [reflexivity|]. split; [constructor; [apply digit_char_of; lia|exact S]|]. split; [exact F|]. split; [cbn [length]; lia|exact R].
Qed.

(* What follows the digits (the part of lex_number behind the loop). *)
Definition finish (base value n : Z) (l errs : list Z) : lres (option token) :=
  if (base =? 10) && (n =? 0) then LGood None l errs
  else
    lbind (peek l) (fun c _ _ =>
    let errs := if alphanum c then 53 :: errs else if n =? 0 then 424 :: errs else errs in
    let number := if (two32 - 1 <? value) || ((base =? 10) && (two31 - 1 <? value)) then TNumber64 value else TNumber (wrap32 value) in
    if base =? 10 then
      lbind (match_char strict 46 l) (fun m l2 _ =>
      if m : bool then lbind (peek l2) (fun c _ _ => if is_digit c then LGood (Some (TFloat value)) l2 errs else LGood (Some number) l errs)
      else LGood (Some number) l errs)
    else LGood (Some number) l errs).
Definition start (base n : Z) (l : list Z) : lres (option token) :=
  lbind (digits strict base l 0 n [] true) (fun vn l errs => finish base (fst vn) (snd vn) l errs).

(* The cases of the beginning. *)
Inductive begins : list Z -> Z -> Z -> list Z -> Prop :=
| bg_other c l : c <> 48 -> begins (c :: l) 10 0 (c :: l)
| bg_zero c l : c <> 98 -> c <> 111 -> c <> 120 -> begins (48 :: c :: l) 10 1 (c :: l)
| bg_bin c l : begins (48 :: 98 :: c :: l) 2 0 (c :: l)
| bg_oct c l : begins (48 :: 111 :: c :: l) 8 0 (c :: l)
| bg_hex c l : begins (48 :: 120 :: c :: l) 16 0 (c :: l).
Lemma lex_begins l base n l' : begins l base n l' -> lex_number strict l = start base n l'.
Proof.
  intros H. unfold lex_number. destruct H.
  - rewrite match_no by lia. reflexivity.
  - rewrite match_yes by discriminate. cbn [lbind]. rewrite match_no by lia. cbn [lbind]. rewrite match_no by lia. cbn [lbind]. rewrite match_no by lia. reflexivity.
  - rewrite match_yes by discriminate. cbn [lbind]. rewrite match_yes by discriminate. reflexivity.
  - rewrite match_yes by discriminate. cbn [lbind]. rewrite match_no by lia. cbn [lbind]. rewrite match_yes by discriminate. reflexivity.
  - rewrite match_yes by discriminate. cbn [lbind]. rewrite match_no by lia. cbn [lbind]. rewrite match_no by lia. cbn [lbind]. rewrite match_yes by discriminate. reflexivity.
Qed.
Lemma begins_cases l : (exists base n l', begins l base n l') \/ l = [] \/ (exists c, l = [48; c] /\ In c [98; 111; 120]) \/ l = [48].
Proof.
  destruct l as [|c l]; [auto|]. destruct (Z.eq_dec c 48) as [->|N]; [|left; eauto using begins].
  destruct l as [|d l]; [auto|].
  destruct (Z.eq_dec d 98) as [->|N1]; [destruct l; [right; right; left; eexists; split; [reflexivity|cbn; auto]|left; eauto using begins]|].
  destruct (Z.eq_dec d 111) as [->|N2]; [destruct l; [right; right; left; eexists; split; [reflexivity|cbn; auto]|left; eauto using begins]|].
  destruct (Z.eq_dec d 120) as [->|N3]; [destruct l; [right; right; left; eexists; split; [reflexivity|cbn; auto]|left; eauto using begins]|].
  left. eauto using begins.
Qed.

Lemma prefix_begins base p t ds rest : number_prefix base p -> spelled base t ds -> ds <> [] -> number_ends base rest ->
  exists n t' ds', begins (p ++ t ++ rest) base n (t' ++ rest) /\ spelled base t' ds' /\ value_of base ds' = value_of base ds /\ n + Z.of_nat (length ds') = Z.of_nat (length ds) /\ 0 <= n /\ 2 <= base <= 16.
Proof.
  intros P S NE (c & more & -> & A & _).
  assert (T : exists x t', t = x :: t') by (destruct S; eauto; congruence). destruct T as (x & t' & ->).
  destruct P; cbn [app].
  1-3: exists 0, (x :: t'), ds; cbn [app]; repeat split; try lia; try assumption; constructor.
  destruct (Z.eq_dec x 48) as [->|N].
  - inversion S as [|? ? S'|? d ? ds' D S']; subst; try lia.
    assert (TEN : 10 <= 16) by lia. destruct (digit_of_spec _ _ _ TEN D) as (E & _). cbv in E. subst d.
    exists 1, t', ds'. split.
    + assert (W : exists y l, t' ++ c :: more = y :: l /\ y <> 98 /\ y <> 111 /\ y <> 120).
      { destruct t' as [|y t']; cbn [app].
        - exists c, more. split; [reflexivity|]. unfold alphanum, is_alpha in A. lia.
        - exists y, (t' ++ c :: more). split; [reflexivity|]. inversion S' as [|? ? S2|? d2 ? ds2 D2 S2]; subst; [lia|]. destruct D2 as (X1 & X2). lia. }
      destruct W as (y & l & -> & W1 & W2 & W3). constructor; assumption.
    + repeat split; try lia; try assumption. cbn [length]. lia.
  - exists 0, (x :: t'), ds. cbn [app]. repeat split; try lia; try assumption. now constructor.
Qed.

Lemma value_nonneg base t ds : 2 <= base <= 16 -> spelled base t ds -> 0 <= value_of base ds.
Proof. intros B S. apply fold_grows; [lia| |lia]. eapply spelled_nonneg; [|exact S]. lia. Qed.

Lemma finish_good base v n rest : 0 < n -> 0 <= v < U64 -> number_ends base rest -> finish base v n rest [] = LGood (Some (token_of base v)) rest [].
Proof.
  intros N V (c & more & -> & A & P). unfold finish. replace (n =? 0) with false by lia. rewrite andb_false_r. rewrite peek_cons. cbn [lbind]. cbv zeta. rewrite A.
  assert (T : (if (two32 - 1 <? v) || ((base =? 10) && (two31 - 1 <? v)) then TNumber64 v else TNumber (wrap32 v)) = token_of base v).
  { unfold token_of. change two32 with (2 * two31). assert (0 < two31) by (cbv; reflexivity).
    destruct (base =? 10); cbn [negb andb]; [destruct (2 * two31 - 1 <? v) eqn:X, (two31 - 1 <? v) eqn:Y, (v <? two31) eqn:Z; cbn [orb]; try reflexivity; lia|].
    destruct (2 * two31 - 1 <? v) eqn:X, (v <? two31) eqn:Y, (v <? 2 * two31) eqn:Z; cbn [orb]; try reflexivity; lia. }
  rewrite T. destruct (base =? 10) eqn:B; [|reflexivity]. apply Z.eqb_eq in B. subst base.
  destruct (Z.eq_dec c 46) as [->|M].
  - destruct (P eq_refl eq_refl) as (d & more2 & -> & D). rewrite match_yes by discriminate. cbn [lbind]. rewrite peek_cons. cbn [lbind]. now rewrite D.
  - rewrite match_no by lia. reflexivity.
Qed.

Lemma number_good base p t ds rest : number_prefix base p -> spelled base t ds -> ds <> [] -> value_of base ds < 2 ^ 64 -> number_ends base rest ->
  lex_number strict (p ++ t ++ rest) = LGood (Some (token_of base (value_of base ds))) rest [].
Proof.
  intros P S NE V E. destruct (prefix_begins _ _ _ _ _ P S NE E) as (n & t' & ds' & B & S' & EV & EN & N & BB).
  rewrite (lex_begins _ _ _ _ B). unfold start.
  assert (R : exists c more, rest = c :: more /\ digit_of c = -1 /\ c <> 95).
  { destruct E as (c & more & -> & A & _). exists c, more. split; [reflexivity|]. now apply not_digit. }
  rewrite (digits_good base t' ds' rest [] true BB S' R 0 n ltac:(lia)); [|change (value_of base ds' < U64); rewrite EV; exact V].
  cbn [lbind fst snd]. change (fold_left (step base) ds' 0) with (value_of base ds'). rewrite EV. apply finish_good; [|pose proof (value_nonneg _ _ _ BB S); unfold U64; lia|exact E].
  destruct ds; [congruence|]. cbn [length] in EN. lia.
Qed.


(* Streams that end in the terminator. *)
Definition ended (l : list Z) : Prop := exists t, l = t ++ [0].
Lemma ended_ne l : ended l -> exists c l', l = c :: l'.
Proof. intros (t & ->). destruct t; cbn [app]; eauto. Qed.
Lemma ended_next c l : ended (c :: l) -> c <> 0 -> ended l.
Proof. intros (t & E) N. destruct t as [|d t]; cbn [app] in E; injection E as -> ->; [congruence|]. now exists t. Qed.
Lemma ended_app t l : ended l -> ended (t ++ l).
Proof. intros (u & ->). exists (t ++ u). now rewrite app_assoc. Qed.
Lemma ended_end : ended [0]. Proof. now exists []. Qed.

Lemma finish_reports base v n l e : ended l ->
  exists tok rest e', finish base v n l e = LGood tok rest e' /\ incl e e' /\ ended rest.
Proof.
  intros EN. unfold finish. destruct ((base =? 10) && (n =? 0)); [eexists _, _, _; split; [reflexivity|]; split; [apply incl_refl|exact EN]|].
  destruct (ended_ne _ EN) as (c & l' & ->). rewrite peek_cons. cbn [lbind]. cbv zeta.
  assert (I2 : incl e (if alphanum c then 53 :: e else if n =? 0 then 424 :: e else e)) by (destruct (alphanum c), (n =? 0); auto using incl_refl, incl_tl).
  destruct (base =? 10); [|eauto 6].
  destruct (Z.eq_dec c 46) as [->|M]; [|rewrite match_no by lia; cbn [lbind]; eauto 6].
  assert (EN2 : ended l') by (eapply ended_next; [exact EN|lia]). destruct (ended_ne _ EN2) as (d & l & ->).
  rewrite match_yes by discriminate. cbn [lbind]. rewrite peek_cons. cbn [lbind].
  destruct (is_digit d); eauto 6.
Qed.
Lemma digits_ended base l : ended l -> forall v n e ok, exists r rest e', digits strict base l v n e ok = LGood r rest e' /\ incl e e' /\ ended rest.
Proof.
  induction l as [|c l IH]; intros EN v n e ok; [destruct (ended_ne _ EN) as (? & ? & ?); discriminate|]. cbn [digits].
  assert (STOP : c = 0 \/ (exists d l', l = d :: l') /\ ended l).
  { destruct (Z.eq_dec c 0) as [->|N]; [auto|right]. apply ended_next in EN; [|exact N]. split; [now apply ended_ne|exact EN]. }
  destruct STOP as [->|(NE & EN2)].
  - cbn [Z.eqb]. change (digit_of 0 <? 0) with true. cbv iota. eexists _, _, _. split; [reflexivity|]. split; [apply incl_refl|exact EN].
  - specialize (IH EN2). 
    assert (NX : forall k : lres (Z * Z), match l with [] => if strict then LUndef UBAssert else k | _ => k end = k) by (intros; destruct NE as (? & ? & ->); reflexivity).
    destruct (c =? 95); [rewrite NX; apply IH|]. destruct (digit_of c <? 0); [eexists _, _, _; split; [reflexivity|]; split; [apply incl_refl|exact EN]|].
    rewrite NX. destruct (base <=? digit_of c).
    { destruct (IH v n (if ok then 86 :: e else e) false) as (r & rest & e' & E & I & X). exists r, rest, e'. split; [exact E|]. split; [|exact X].
      intros y Y. apply I. destruct ok; [now right|exact Y]. }
    destruct (U64 <=? v * base); [eexists _, _, _; split; [reflexivity|]; split; [apply incl_tl, incl_refl|exact EN2]|].
    destruct (U64 <=? v * base + digit_of c); [eexists _, _, _; split; [reflexivity|]; split; [apply incl_tl, incl_refl|exact EN2]|]. apply IH.
Qed.
Lemma begins_ended l : ended l -> exists base n l', begins l base n l' /\ ended l'.
Proof.
  intros EN. destruct (ended_ne _ EN) as (c & l' & ->). destruct (Z.eq_dec c 48) as [->|N]; [|eauto 6 using begins].
  apply ended_next in EN; [|lia]. destruct (ended_ne _ EN) as (d & l & ->).
  assert (K : d <> 0 -> exists x y, l = x :: y /\ ended (x :: y)).
  { intros D. apply ended_next in EN; [|exact D]. destruct (ended_ne _ EN) as (x & y & ->). eauto. }
  destruct (Z.eq_dec d 98) as [->|N1]; [destruct (K ltac:(lia)) as (x & y & -> & X); eauto 6 using begins|].
  destruct (Z.eq_dec d 111) as [->|N2]; [destruct (K ltac:(lia)) as (x & y & -> & X); eauto 6 using begins|].
  destruct (Z.eq_dec d 120) as [->|N3]; [destruct (K ltac:(lia)) as (x & y & -> & X); eauto 6 using begins|].
  eauto 6 using begins.
Qed.
(* Reading a number never leaves the text. *)
Lemma number_safe text : exists tok rest e, lex_number strict (text ++ [0]) = LGood tok rest e /\ exists more, rest = more ++ [0].
Proof.
  destruct (begins_ended (text ++ [0])) as (base & n & l' & B & EN); [now exists text|]. rewrite (lex_begins _ _ _ _ B). unfold start.
  destruct (digits_ended base l' EN 0 n [] true) as (r & rest & e' & -> & _ & EN2). cbn [lbind].
  destruct (finish_reports base (fst r) (snd r) rest e' EN2) as (tok & rest' & e2 & -> & _ & X). eauto 6.
Qed.
Lemma number_big base p t ds rest : number_prefix base p -> spelled base t ds -> 2 ^ 64 <= value_of base ds -> number_ends base rest -> (exists more, rest = more ++ [0]) ->
  exists tok rest' e, lex_number strict (p ++ t ++ rest) = LGood tok rest' e /\ In 135 e.
Proof.
  intros P S V E EN. assert (NE : ds <> []) by (intros ->; cbv in V; apply V; reflexivity).
  destruct (prefix_begins _ _ _ _ _ P S NE E) as (n & t' & ds' & B & S' & EV & ELN & N & BB).
  rewrite (lex_begins _ _ _ _ B). unfold start.
  assert (RN : rest <> []) by (destruct E as (? & ? & -> & _); discriminate).
  destruct (digits_big base t' ds' rest true BB S' RN 0 n [] ltac:(cbv; split; [discriminate|reflexivity])) as (r & l & D & _).
  { change (U64 <= value_of base ds'). rewrite EV. exact V. }
  destruct (digits_ended base (t' ++ rest) (ended_app t' _ EN) 0 n [] true) as (r2 & l2 & e2 & D2 & _ & EN2). rewrite D in D2. injection D2 as <- <- <-.
  rewrite D. cbn [lbind]. destruct (finish_reports base (fst r) (snd r) l [135] EN2) as (tok & rest' & e' & -> & I & _).
  exists tok, rest', e'. split; [reflexivity|]. apply I. now left.
Qed.

(* A number read without any message. *)
Lemma number_sound l tok rest : lex_number strict l = LGood (Some tok) rest [] ->
  exists base p t ds, number_prefix base p /\ spelled base t ds /\ ds <> [] /\ value_of base ds < 2 ^ 64 /\
    ((l = p ++ t ++ rest /\ tok = token_of base (value_of base ds) /\ number_ends base rest) \/
     (base = 10 /\ l = p ++ t ++ 46 :: rest /\ tok = TFloat (value_of 10 ds) /\ exists d more, rest = d :: more /\ is_digit d = true)).
Proof.
  intros H. destruct (begins_cases l) as [(base & n & l' & B)|BAD].
  2:{ exfalso. destruct BAD as [-> | [(c & -> & [<- | [<- | [<- | []]]]) | ->]]; revert H; clear; destruct strict; vm_compute; discriminate. }
  rewrite (lex_begins _ _ _ _ B) in H. unfold start in H.
  assert (BB : 2 <= base <= 16) by (destruct B; lia).
  destruct (digits strict base l' 0 n [] true) as [[v n'] l2 e2|] eqn:D; [|discriminate]. cbn [lbind fst snd] in H.
  assert (E2 : e2 = []).
  { clear - H. unfold finish in H. destruct ((base =? 10) && (n' =? 0)); [discriminate|]. destruct l2 as [|c l2]; [discriminate|]. rewrite peek_cons in H. cbn [lbind] in H. cbv zeta in H.
    destruct (base =? 10).
    - destruct (match_char strict 46 (c :: l2)) as [m l3 e3|]; [|discriminate]. cbn [lbind] in H. destruct m.
      + destruct (peek l3) as [x l4 e4|]; [|discriminate]. cbn [lbind] in H. destruct (is_digit x); injection H as _ _ H; destruct (alphanum c), (n' =? 0); try discriminate; exact H.
      + injection H as _ _ H. destruct (alphanum c), (n' =? 0); try discriminate; exact H.
    - injection H as _ _ H. destruct (alphanum c), (n' =? 0); try discriminate; exact H. }
  destruct (digits_sound base l' BB 0 n [] true v n' l2 e2 D ltac:(cbv; split; [discriminate|reflexivity]) ltac:(reflexivity) E2) as (_ & t & ds & -> & S & EV & EN & V & c & more & -> & DC & NC). subst e2.
  assert (PT : exists p t2 ds2, number_prefix base p /\ l = p ++ t2 ++ c :: more /\ spelled base t2 ds2 /\ value_of base ds2 = v /\ n' = Z.of_nat (length ds2)).
  { assert (ZD : digit_char 10 48 0) by (split; [lia|left; lia]).
    inversion B; subst.
    - exists [], t, ds. repeat split; try assumption; constructor.
    - exists [], (48 :: t), (0 :: ds). split; [constructor|]. split; [cbn [app]; congruence|]. split; [constructor; assumption|]. split; [reflexivity|]. cbn [length]. lia.
    - exists [48; 98], t, ds. repeat split; try assumption; try constructor. cbn [app]. congruence.
    - exists [48; 111], t, ds. repeat split; try assumption; try constructor. cbn [app]. congruence.
    - exists [48; 120], t, ds. repeat split; try assumption; try constructor. cbn [app]. congruence. }
  destruct PT as (p & t2 & ds2 & P & -> & S2 & VV & N2). clear EV EN B D S t ds.
  exists base, p, t2, ds2. unfold finish in H.
  destruct ((base =? 10) && (n' =? 0)) eqn:Q; [discriminate|]. rewrite peek_cons in H. cbn [lbind] in H. cbv zeta in H.
  destruct (alphanum c) eqn:AC.
  { exfalso. destruct (base =? 10); [|discriminate]. destruct (match_char strict 46 (c :: more)) as [m l3 e3|]; [|discriminate]. cbn [lbind] in H. destruct m; [|discriminate].
    destruct (peek l3) as [x l4 e4|]; [|discriminate]. cbn [lbind] in H. destruct (is_digit x); discriminate. }
  destruct (n' =? 0) eqn:Q2.
  { exfalso. destruct (base =? 10); [|discriminate]. destruct (match_char strict 46 (c :: more)) as [m l3 e3|]; [|discriminate]. cbn [lbind] in H. destruct m; [|discriminate].
    destruct (peek l3) as [x l4 e4|]; [|discriminate]. cbn [lbind] in H. destruct (is_digit x); discriminate. }
  split; [exact P|]. split; [exact S2|]. split; [intros ->; cbn [length] in N2; lia|]. split; [rewrite VV; unfold U64 in V; lia|].
  assert (FG : number_ends base (c :: more) -> finish base v n' (c :: more) [] = LGood (Some (token_of base v)) (c :: more) []).
  { intros X. apply finish_good; [lia|exact V|exact X]. }
  unfold finish in FG. rewrite Q2, Q in FG. rewrite peek_cons in FG. cbn [lbind] in FG. cbv zeta in FG. rewrite AC in FG. rewrite VV.
  destruct (base =? 10) eqn:TEN.
  - apply Z.eqb_eq in TEN. subst base. destruct (Z.eq_dec c 46) as [->|M].
    + destruct more as [|d more]; [exfalso; revert H; unfold match_char; rewrite peek_cons; cbn [lbind Z.eqb Pos.eqb]; unfold advance; destruct strict; cbn [lbind]; discriminate|].
      rewrite match_yes in H, FG by discriminate. cbn [lbind] in H, FG. rewrite peek_cons in H, FG. cbn [lbind] in H, FG.
      destruct (is_digit d) eqn:DD.
      * injection H as <- <-. right. split; [reflexivity|]. split; [reflexivity|]. split; [now rewrite <- VV|]. eauto.
      * left. assert (X : number_ends 10 (46 :: d :: more)) by (exists 46, (d :: more); split; [reflexivity|]; split; [exact AC|]; eauto).
        rewrite (FG X) in H. injection H as <- <-. auto.
    + left. assert (X : number_ends 10 (c :: more)) by (exists c, more; split; [reflexivity|]; split; [exact AC|]; intros; lia).
      rewrite (FG X) in H. injection H as <- <-. auto.
  - left. assert (X : number_ends base (c :: more)) by (exists c, more; split; [reflexivity|]; split; [exact AC|]; intros; lia).
    rewrite (FG X) in H. injection H as <- <-. auto.
Qed.
End L.
