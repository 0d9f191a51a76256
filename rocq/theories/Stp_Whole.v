(* Reading statements ends; what can be in them.  C48. *)
From Verif Require Import Base Par_Model Par_Spec Par_Proofs Par_Complete Par_Whole Stp_Model Stp_Spec Stp_Proofs Stp_Complete.
From Coq Require Import Lia.

Section Whole.
Variable ns : bool.
Variable is_string : Z -> bool.

Lemma lencommas f t ts es r : commas ns f t ts = PGood es r -> (length r < length ts)%nat.
Proof. intros H. apply commas_sound in H. destruct H as (l & -> & Q & _). destruct (sequence_head _ _ _ _ Q) as (tok & l' & -> & _). rewrite app_length. cbn. lia. Qed.
Lemma lenexprs ts e r : exprs ns ts = PGood e r -> (length r < length ts)%nat.
Proof. unfold exprs. intros H. apply pbind_good in H. destruct H as (es & r1 & H & [= _ <-]). now apply lencommas in H. Qed.
Lemma lenparens ts e r : parens ns ts = PGood e r -> (length r < length ts)%nat.
Proof.
  unfold parens. intros H. apply need_good in H. destruct H as (o & r1 & _ & -> & H). apply pbind_good in H. destruct H as (e' & r2 & H & H2). apply lenexprs in H.
  apply need_good in H2. destruct H2 as (c & r3 & _ & -> & [= _ <-]). cbn [length] in *. lia.
Qed.
Lemma lenterm ts r : term ns ts = Some r -> (length r <= length ts)%nat.
Proof. intros H. apply term_sound in H. destruct H as (c & -> & _). rewrite app_length. lia. Qed.
Lemma lenneed {A} ts (a a' : A) r : needterm ns ts a = PGood a' r -> (length r <= length ts)%nat.
Proof. unfold needterm. destruct (term ns ts) eqn:E; [|discriminate]. intros [= _ <-]. now apply lenterm. Qed.
Lemma lendecl ts s r : local_decl ns is_string ts = PGood s r -> (length r < length ts)%nat.
Proof. intros H. apply local_decl_sound in H. destruct H as (l & -> & D). destruct D. cbn. rewrite app_length. lia. Qed.
Lemma lenkw k ts r : at_kw k ts = Some r -> length ts = S (length r).
Proof. destruct ts as [|t ts]; [discriminate|]. cbn. destruct (is_kw k t); [|discriminate]. now intros [= ->]. Qed.
Lemma lencolon ts r : at_colon ts = Some r -> length ts = S (length r).
Proof. intros H. apply at_colon_some in H. destruct H as (t & g & _ & ->). reflexivity. Qed.
Lemma lenfor ts i r : for_init_of ns is_string ts = PGood i r -> (length r < length ts)%nat.
Proof. intros H. apply for_init_sound in H. destruct H as (l & -> & F). destruct F; rewrite !app_length; cbn; lia. Qed.
Lemma lenif {A} (c : bool) (a b : option A) x : (if c then a else b) = Some x -> a = Some x \/ b = Some x.
Proof. destruct c; auto. Qed.
Lemma lenoptional (f : list token -> option (list token)) r1 c r : (forall ts r, f ts = Some r -> length ts = S (length r)) ->
  match f r1 with Some r2 => PGood None r2 | None => pbind (exprs ns r1) (fun e r2 => match f r2 with Some r3 => PGood (Some e) r3 | None => PBad end) end = PGood c r -> (length r < length r1)%nat.
Proof.
  intros F. destruct (f r1) as [r2|] eqn:E; [intros [= _ <-]; apply F in E; lia|]. intros H. apply pbind_good in H. destruct H as (e & r2 & H & H2). apply lenexprs in H.
  destruct (f r2) as [r3|] eqn:E2; [|discriminate]. injection H2 as _ <-. apply F in E2. lia.
Qed.
Lemma lenopen r (par : bool) r0 : match at_ PLPar r with Some r0 => (true, r0) | None => (false, r) end = (par, r0) -> (length r0 <= length r)%nat.
Proof. destruct (at_ PLPar r) as [x|] eqn:E; intros [= _ <-]; [apply at_len in E; lia|lia]. Qed.
Lemma lenclose (par : bool) ts r : (if par then at_ PRPar ts else at_kw KDo ts) = Some r -> length ts = S (length r).
Proof. destruct par; [apply at_len|apply lenkw]. Qed.

(* A computation comes to a result without running out of fuel, and leaves at most [n] tokens. *)
Definition ok {A} (n : nat) (m : pres A) : Prop := match m with PGood _ r => (length r <= n)%nat | PBad => True | PFuel => False end.
Lemma ok_bind {A B} n n' (m : pres A) (k : A -> list token -> pres B) : ok n m -> (forall a r, m = PGood a r -> (length r <= n)%nat -> ok n' (k a r)) -> ok n' (pbind m k).
Proof. destruct m; cbn; auto. Qed.
Lemma ok_need {A} n p ts (k : list token -> pres A) : (forall r, length ts = S (length r) -> ok n (k r)) -> ok n (need p ts k).
Proof. unfold need. destruct (at_ p ts) eqn:E; [|intros; exact I]. apply at_len in E. auto. Qed.
Lemma ok_le {A} n n' (m : pres A) : ok n m -> (n <= n')%nat -> ok n' m.
Proof. destruct m; cbn; auto. lia. Qed.
Lemma ok_commas t ts : (1 <= length ts)%nat -> ok (length ts - 1) (commas ns (20 * length ts + 17) t ts).
Proof.
  intros L. destruct (commas ns (20 * length ts + 17) t ts) eqn:E; cbn; [apply lencommas in E; lia|auto|].
  destruct (enough ns (20 * length ts + 17)) as (_ & _ & _ & _ & _ & _ & _ & _ & _ & N & _). apply (N t ts); [lia|exact E].
Qed.
Lemma ok_exprs ts : ok (length ts - 1) (exprs ns ts).
Proof.
  destruct ts as [|t ts]; [reflexivity|]. unfold exprs. apply (ok_bind (length (t :: ts) - 1)); [apply ok_commas; cbn; lia|]. intros a r _ L. exact L.
Qed.
Lemma ok_parens ts : ok (length ts - 1) (parens ns ts).
Proof.
  unfold parens. apply ok_need. intros r L. apply (ok_bind (length r - 1)); [apply ok_exprs|]. intros e r1 _ L1. apply ok_need. intros r2 L2. cbn. lia.
Qed.
Lemma ok_term {A} n ts (a : A) : (length ts <= n)%nat -> ok n (needterm ns ts a).
Proof. intros L. destruct (needterm ns ts a) eqn:E; cbn; auto; [apply lenneed in E; lia|]. unfold needterm in E. destruct (term ns ts); discriminate. Qed.
Lemma var_init_nf ts : var_init ns is_string ts <> PFuel.
Proof.
  destruct ts as [|t ts]; [discriminate|]. unfold var_init. pose proof (expression_total ns true (t :: ts)). destruct (kind t) as [|v| | | | | | |p| |]; auto; [destruct (is_string v); [discriminate|auto]|].
  destruct p; auto. discriminate.
Qed.
Lemma lenvar ts e r : var_init ns is_string ts = PGood e r -> (length r <= length ts)%nat.
Proof.
  intros H. apply (var_init_sound _ _ _ _ _ (mkTok (P (PAsg ASet)) false) eq_refl) in H. destruct H as (l & -> & _). rewrite app_length. lia.
Qed.
Lemma vars_nf f : forall ts, (length ts < f)%nat -> vars ns is_string f ts <> PFuel.
Proof.
  induction f as [|f IH]; intros ts L; [lia|]. cbn [vars]. destruct (symbol true ts) as [(s & r)|] eqn:S; [|discriminate]. apply sym_len in S. apply nf_bind.
  - destruct (at_ (PAsg ASet) r); [|discriminate]. apply nf_bind; [apply var_init_nf|discriminate].
  - intros o r1 H. assert (L1 : (length r1 <= length r)%nat).
    { destruct (at_ (PAsg ASet) r) as [r2|] eqn:E; [|injection H as _ <-; lia]. apply at_len in E. apply pbind_good in H. destruct H as (e & r3 & H & [= _ <-]). apply lenvar in H. lia. }
    destruct (at_ PComma r1) as [r2|] eqn:E; [|discriminate]. apply at_len in E. apply nf_bind; [apply IH; lia|discriminate].
Qed.
Lemma ok_decl ts : ok (length ts - 1) (local_decl ns is_string ts).
Proof.
  destruct (local_decl ns is_string ts) eqn:E; cbn; auto; [apply lendecl in E; lia|]. unfold local_decl in E. destruct (typename true ts) as [(ty & r)|]; [|discriminate].
  revert E. apply nf_bind; [apply vars_nf; lia|discriminate].
Qed.
Lemma ok_for ts : (1 <= length ts)%nat -> ok (length ts - 1) (for_init_of ns is_string ts).
Proof.
  intros L. unfold for_init_of. destruct (at_ PSemi ts) as [r|] eqn:E; [apply at_len in E; cbn; lia|]. destruct (is_decl ts).
  - apply (ok_bind (length ts - 1)); [apply ok_decl|]. intros s r _ L1. apply ok_need. intros r2 L2. cbn. lia.
  - destruct ts as [|t ts]; [exact I|]. assert (G : ok (length (t :: ts) - 1) (pbind (exprs ns (t :: ts)) (fun e r1 => need PSemi r1 (fun r2 => PGood (Some (SExpr e)) r2)))).
    { apply (ok_bind (length (t :: ts) - 1)); [apply ok_exprs|]. intros s r _ L1. apply ok_need. intros r2 L2. cbn [ok]. lia. }
    destruct (kind t); try exact G. exact I.
Qed.
Lemma ok_optional (f : list token -> option (list token)) ts : (forall ts r, f ts = Some r -> length ts = S (length r)) ->
  ok (length ts - 1) (match f ts with Some r2 => PGood None r2 | None => pbind (exprs ns ts) (fun e r2 => match f r2 with Some r3 => PGood (Some e) r3 | None => PBad end) end).
Proof.
  intros F. destruct (f ts) as [r|] eqn:E; [apply F in E; cbn; lia|]. apply (ok_bind (length ts - 1)); [apply ok_exprs|]. intros e r _ L. destruct (f r) as [r3|] eqn:E2; [|exact I]. apply F in E2. cbn. lia.
Qed.
Lemma expr_nil : exprs ns [] = PBad. Proof. reflexivity. Qed.

Definition Est f := forall d p ts, (3 * length ts < f)%nat -> ok (length ts - 1) (statement ns is_string f d p ts).
Definition Ebk f := forall p ts, (3 * length ts + 1 < f)%nat -> ok (length ts - 1) (compound ns is_string f p ts).
Definition Elb f := forall p df ts, (3 * length ts < f)%nat -> ok (length ts - 1) (cases ns is_string f p df ts).
Lemma stmt_nonempty f d p r s r1 : statement ns is_string f d p r = PGood s r1 -> r <> [].
Proof. intros H ->. destruct f; [discriminate|]. cbn in H. discriminate. Qed.
Lemma e_statement f : Est f -> Ebk f -> Elb f -> Est (S f).
Proof.
  intros IS IB IL d p ts L. cbn [statement]. fold (statement ns is_string) (compound ns is_string) (cases ns is_string). destruct (is_decl ts).
  - destruct d; [|exact I]. apply (ok_bind (length ts - 1)); [apply ok_decl|]. intros s r _ LR. now apply ok_term.
  - destruct ts as [|t ts]; [exact I|].
    assert (EX : ok (length (t :: ts) - 1) (pbind (exprs ns (t :: ts)) (fun e r => needterm ns r (SExpr e)))).
    { apply (ok_bind (length (t :: ts) - 1)); [apply ok_exprs|]. intros e r _ LR. now apply ok_term. }
    assert (ST : forall d p r, (length r <= length ts)%nat -> ok (length r - 1) (statement ns is_string f d p r)) by (intros; apply IS; cbn [length] in L; lia).
    replace (length (t :: ts) - 1)%nat with (length ts) in * by (cbn; lia).
    destruct (kind t) as [| | | | | | | |q| |k] eqn:K; try exact EX.
    + destruct (symbol true ts) as [(z & r1)|]; [|exact I]. destruct (at_ PLPar r1); [exact EX|exact I].
    + destruct q; try exact EX; try exact I. apply (ok_bind (length ts - 1)); [apply IB; cbn [length] in L; lia|]. intros l r _ LR. cbn [ok]. lia.
    + destruct k; try exact I.
      * apply (ok_bind (length ts - 1)); [apply ok_parens|]. intros c r1 _ L1. apply (ok_bind (length r1 - 1)); [apply ST; lia|]. intros a r2 _ L2.
        destruct (at_kw KElse r2) as [r3|] eqn:E; [|cbn [ok]; lia]. apply lenkw in E. apply (ok_bind (length r3 - 1)); [apply ST; lia|]. intros b r4 _ L4. cbn [ok]. lia.
      * apply (ok_bind (length ts - 1)); [apply ok_parens|]. intros c r1 _ L1. apply (ok_bind (length r1 - 1)); [apply ST; lia|]. intros a r2 _ L2. cbn [ok]. lia.
      * apply (ok_bind (length ts - 1)); [apply ST; lia|]. intros s r1 _ L1. destruct (at_kw KWhile r1) as [r2|] eqn:E; [|exact I]. apply lenkw in E. destruct (at_ PLPar r2) as [r3|] eqn:E2.
        -- apply at_len in E2. apply (ok_bind (length r3 - 1)); [apply ok_exprs|]. intros c r4 _ L4. apply ok_need. intros r5 L5. apply ok_term. lia.
        -- apply (ok_bind (length r2 - 1)); [apply ok_exprs|]. intros c r4 _ L4. apply ok_term. lia.
      * destruct (match at_ PLPar ts with Some r0 => (true, r0) | None => (false, ts) end) as [par r0] eqn:OP. apply lenopen in OP. fold (for_init_of ns is_string r0).
        destruct r0 as [|t0 r0]; [exact I|]. apply (ok_bind (length (t0 :: r0) - 1)); [apply ok_for; cbn; lia|]. intros init r1 _ L1.
        apply (ok_bind (length r1 - 1)); [apply (ok_optional (at_ PSemi)); intros ? ? X; now apply at_len in X|]. intros c r2 _ L2.
        apply (ok_bind (length r2 - 1)); [apply (ok_optional (fun ts => if par then at_ PRPar ts else at_kw KDo ts)); intros ? ? X; now apply lenclose in X|]. intros adv r3 _ L3.
        apply (ok_bind (length r3 - 1)); [apply ST; lia|]. intros s r4 _ L4. cbn [ok]. lia.
      * destruct (match at_ PLPar ts with Some r0 => (true, r0) | None => (false, ts) end) as [par r0] eqn:OP. apply lenopen in OP.
        apply (ok_bind (length r0 - 1)); [apply ok_exprs|]. intros e r1 _ L1. destruct (if par then at_ PRPar r1 else at_kw KDo r1) as [r2|] eqn:E; [|exact I]. apply lenclose in E.
        apply ok_need. intros r3 L3. apply (ok_bind (length r3 - 1)); [apply IL; cbn [length] in L; lia|]. intros x r4 _ L4. cbn [ok]. lia.
      * destruct p; [|exact I]. now apply ok_term.
      * destruct p; [|exact I]. now apply ok_term.
      * destruct (term ns ts) as [r1|] eqn:E; [apply lenterm in E; exact E|]. apply (ok_bind (length ts - 1)); [apply ok_exprs|]. intros e r1 _ L1. apply ok_term. lia.
      * apply (ok_bind (length ts - 1)); [apply ok_parens|]. intros e r1 _ L1. apply ok_term. lia.
      * apply (ok_bind (length ts - 1)); [apply ok_exprs|]. intros e r1 _ L1. apply ok_term. lia.
      * destruct (term ns ts) as [r1|] eqn:E; [|cbn [ok]; lia]. apply lenterm in E. apply (ok_bind (length r1 - 1)); [apply ok_exprs|]. intros e r2 _ L1. apply ok_term. lia.
Qed.
Lemma e_block f : Est f -> Ebk f -> Ebk (S f).
Proof.
  intros IS IB p ts L. cbn [compound]. fold (statement ns is_string) (compound ns is_string). destruct (at_ PRBrace ts) as [r|] eqn:E; [apply at_len in E; cbn; lia|].
  apply (ok_bind (length ts - 1)); [apply IS; lia|]. intros s r H LR. apply stmt_nonempty in H. destruct ts as [|t ts]; [contradiction|]. cbn [length] in *.
  apply (ok_bind (length r - 1)); [apply IB; lia|]. intros l r1 _ L1. cbn [ok]. lia.
Qed.
Lemma e_labels f : Est f -> Elb f -> Elb (S f).
Proof.
  intros IS IL p df ts L. cbn [cases]. fold (statement ns is_string) (cases ns is_string). destruct (at_ PRBrace ts) as [r|] eqn:E; [apply at_len in E; cbn; lia|].
  destruct (at_kw KCase ts) as [r|] eqn:C.
  - apply lenkw in C. destruct df; [exact I|]. destruct r as [|t0 r0]; [exact I|]. apply (ok_bind (length (t0 :: r0) - 1)); [apply ok_commas; cbn; lia|]. intros es r1 _ L1.
    destruct (at_colon r1) as [r2|] eqn:CO; [|exact I]. apply lencolon in CO. apply (ok_bind (length r2 - 1)); [apply IS; lia|]. intros s r3 _ L3.
    apply (ok_bind (length r3 - 1)); [apply IL; lia|]. intros x r4 _ L4. cbn [ok]. lia.
  - destruct (at_kw KDefault ts) as [r|] eqn:D; [|exact I]. apply lenkw in D. destruct df; [exact I|]. destruct (at_colon r) as [r1|] eqn:CO; [|exact I]. apply lencolon in CO.
    apply (ok_bind (length r1 - 1)); [apply IS; lia|]. intros s r2 _ L3. apply (ok_bind (length r2 - 1)); [apply IL; lia|]. intros x r4 _ L4. cbn [ok]. lia.
Qed.
Lemma statements_end f : Est f /\ Ebk f /\ Elb f.
Proof.
  induction f as [|f (IS & IB & IL)]; [repeat split; red; intros; lia|]. split; [now apply e_statement|]. split; [now apply e_block|now apply e_labels].
Qed.
Lemma statement_total d p ts : read_statement ns is_string d p ts <> PFuel.
Proof.
  intros H. unfold read_statement in H. pose proof (proj1 (statements_end (3 * length ts + 3)) d p ts ltac:(lia)) as O. rewrite H in O. exact O.
Qed.
Lemma statement_sound d p ts s rest : no_exit ts -> read_statement ns is_string d p ts = PGood s rest -> exists l, ts = l ++ rest /\ states ns is_string false d p l s rest.
Proof. intros NE H. exact (proj1 (statements_sound ns is_string _) d p ts s rest NE H). Qed.

(* A text has one reading. *)
Lemma statement_one d p l1 s1 r1 l2 s2 r2 : states ns is_string true d p l1 s1 r1 -> states ns is_string true d p l2 s2 r2 -> l1 ++ r1 = l2 ++ r2 -> l1 = l2 /\ s1 = s2.
Proof.
  intros A B E. apply statement_complete in A. apply statement_complete in B. rewrite E, B in A. injection A as <- <-. split; [now apply app_inv_tail in E|reflexivity].
Qed.

(* An else goes to the nearest if. *)
Lemma else_nearest d p k1 lc1 c1 k2 lc2 c2 l1 a ke l2 b rest : kw_tok KIf k1 -> kw_tok KIf k2 -> kw_tok KElse ke ->
  parenthesised ns true lc1 c1 -> parenthesised ns true lc2 c2 ->
  states ns is_string true false p l1 a (ke :: l2 ++ rest) -> states ns is_string true false p l2 b rest -> first (fun x => ~ kw_tok KElse x) rest ->
  read_statement ns is_string d p ((k1 :: lc1 ++ k2 :: lc2 ++ l1 ++ ke :: l2) ++ rest) = PGood (SIf c1 (SIf c2 a (Some b)) None) rest.
Proof. intros K1 K2 KE P1 P2 S1 S2 F. apply statement_complete. apply st_if; auto. now apply st_else. Qed.

Lemma no_jumps b : (forall d p l s rest, states ns is_string b d p l s rest -> p = false -> jumps s = false) /\
  (forall p l ss rest, block ns is_string b p l ss rest -> p = false -> existsb jumps ss = false) /\
  (forall p f l cs df rest, labels ns is_string b p f l cs df rest -> p = false ->
     existsb (fun c => jumps (snd c)) cs = false /\ match df with Some d => jumps d | None => false end = false).
Proof.
  apply (states_mut ns is_string b (fun d p l s rest _ => p = false -> jumps s = false) (fun p l ss rest _ => p = false -> existsb jumps ss = false)
    (fun p f l cs df rest _ => p = false -> existsb (fun c => jumps (snd c)) cs = false /\ match df with Some d => jumps d | None => false end = false)); intros; cbn [jumps existsb snd]; auto; try discriminate.
  - match goal with D : declaration _ _ _ _ _ _ |- _ => destruct D end. reflexivity.
  - rewrite H by assumption. reflexivity.
  - rewrite H, H0 by assumption. reflexivity.
  - destruct H as [A B]; [assumption|]. rewrite A, B. reflexivity.
  - rewrite H, H0 by assumption. reflexivity.
  - destruct H0 as [A B]; [assumption|]. rewrite H, A by assumption. auto.
Qed.
Lemma no_bare b : (forall d p l s rest, states ns is_string b d p l s rest -> (d = false -> decl_stmt s = false) /\ bare s = false) /\
  (forall p l ss rest, block ns is_string b p l ss rest -> existsb bare ss = false) /\
  (forall p f l cs df rest, labels ns is_string b p f l cs df rest ->
     existsb (fun c => decl_stmt (snd c) || bare (snd c)) cs = false /\ match df with Some d => decl_stmt d || bare d | None => false end = false).
Proof.
  apply (states_mut ns is_string b (fun d p l s rest _ => (d = false -> decl_stmt s = false) /\ bare s = false) (fun p l ss rest _ => existsb bare ss = false)
    (fun p f l cs df rest _ => existsb (fun c => decl_stmt (snd c) || bare (snd c)) cs = false /\ match df with Some d => decl_stmt d || bare d | None => false end = false)); intros; cbn [bare existsb snd]; auto;
    repeat match goal with H : (false = false -> _) /\ _ |- _ => destruct H as [? H]; specialize (H0 eq_refl) || idtac end;
    repeat match goal with H : false = false -> _ |- _ => specialize (H eq_refl) end.
  all: repeat match goal with D : declaration _ _ _ _ _ _ |- _ => destruct D end.
  all: repeat match goal with H : _ /\ _ |- _ => destruct H end.
  all: repeat match goal with H : _ = false |- _ => rewrite H end.
  all: try (split; [intros; try discriminate; reflexivity|reflexivity]); auto.
Qed.

Lemma read_no_jumps d ts s rest : no_exit ts -> read_statement ns is_string d false ts = PGood s rest -> jumps s = false.
Proof. intros NE H. apply statement_sound in H; [|exact NE]. destruct H as (l & _ & H). exact (proj1 (no_jumps false) _ _ _ _ _ H eq_refl). Qed.
Lemma read_no_bare d p ts s rest : no_exit ts -> read_statement ns is_string d p ts = PGood s rest -> (d = false -> decl_stmt s = false) /\ bare s = false.
Proof. intros NE H. apply statement_sound in H; [|exact NE]. destruct H as (l & _ & H). exact (proj1 (no_bare false) _ _ _ _ _ H). Qed.

(* With semicolons required, what comes behind an expression never goes on with it. *)
Section Required.
Hypothesis N : ns = true.
Lemma req_listed l e c rest : goes_on ns true c = None -> listed ns false true l e (c :: rest) -> listed ns true true l e (c :: rest).
Proof. intros G (Q & _ & C). split; [exact Q|]. split; [|exact C]. intros _. now apply ends_none. Qed.
Lemma req_stops l e c rest : listed ns false true l e (c ++ rest) -> stops ns c rest -> listed ns true true l e (c ++ rest).
Proof. intros L [(t & K & ->)|(_ & X & _)]; [|congruence]. cbn [app] in *. apply req_listed; [now apply (go_p ns PSemi)|exact L]. Qed.
Lemma req_parens l e : parenthesised ns false l e -> parenthesised ns true l e.
Proof. intros (o & l' & c & -> & KO & KC & L). exists o, l', c. do 3 (split; [assumption || reflexivity|]). apply req_listed; [now apply (go_p ns PRPar)|exact L]. Qed.
Lemma req_closer par c : closer par c -> goes_on ns true c = None.
Proof. destruct par; cbn [closer]; intros K; [now apply (go_p ns PRPar)|]. unfold goes_on, kw_tok in *. now rewrite K. Qed.
Lemma req_init li o c rest : goes_on ns true c = None -> initialiser ns is_string false li o (c :: rest) -> initialiser ns is_string true li o (c :: rest).
Proof. intros G H. remember (c :: rest) as r eqn:E. destruct H; subst; [now apply i_none|now apply i_string|apply i_expr; auto; intros _; now apply ends_none]. Qed.
Lemma req_vars l vs r : variables ns is_string false l vs r -> forall c rest, r = c :: rest -> kind c = P PSemi -> variables ns is_string true l vs r.
Proof.
  intros H. induction H as [n s li o rest KN I C|n s li o c l vs rest KN I KC V IH]; intros c' rest' -> K.
  - apply v_last; auto. apply req_init; [now apply (go_p ns PSemi)|exact I].
  - apply v_more; auto; [|now apply (IH c' rest')]. apply req_init; [now apply (go_p ns PComma)|exact I].
Qed.
Lemma req_decl l s c rest : kind c = P PSemi -> declaration ns is_string false l s (c :: rest) -> declaration ns is_string true l s (c :: rest).
Proof. intros K H. remember (c :: rest) as r eqn:E. destruct H. apply d_vars; [assumption|]. eapply req_vars; eauto. Qed.
Lemma req_for l i rest : for_init ns is_string false l i rest -> for_init ns is_string true l i rest.
Proof.
  intros H. destruct H; [now apply fi_none|apply fi_decl; auto; now apply req_decl|apply fi_expr; auto; apply req_listed; auto; now apply (go_p ns PSemi)].
Qed.
Lemma req_optional (okk : token -> Prop) l c rest : (forall t, okk t -> goes_on ns true t = None) -> optional ns false okk l c rest -> optional ns true okk l c rest.
Proof. intros G H. destruct H; [now apply op_none|apply op_some; auto; apply req_listed; auto]. Qed.
Lemma req_all : (forall d p l s rest, states ns is_string false d p l s rest -> states ns is_string true d p l s rest) /\
  (forall p l ss rest, block ns is_string false p l ss rest -> block ns is_string true p l ss rest) /\
  (forall p f l cs df rest, labels ns is_string false p f l cs df rest -> labels ns is_string true p f l cs df rest).
Proof.
  apply (states_mut ns is_string false (fun d p l s rest _ => states ns is_string true d p l s rest) (fun p l ss rest _ => block ns is_string true p l ss rest)
    (fun p f l cs df rest _ => labels ns is_string true p f l cs df rest)).
  - intros. apply st_expr; auto. now apply req_stops.
  - intros p l s c rest D DC ST. apply st_decl; auto. destruct ST as [(t & K & ->)|(_ & X & _)]; [|congruence]. now apply req_decl.
  - intros. now apply st_block.
  - intros. apply st_if; auto. now apply req_parens.
  - intros. apply st_else; auto. now apply req_parens.
  - intros. apply st_while; auto. now apply req_parens.
  - intros. apply st_do; auto. now apply req_parens.
  - intros. apply st_do_old; auto. now apply req_stops.
  - intros d p k par o li init lc c la adv l s rest K OP FI OC OA S1 IH. apply (st_for ns is_string true d p k par); auto; [now apply req_for| |].
    + apply req_optional; [|exact OC]. intros t KT. now apply (go_p ns PSemi).
    + apply req_optional; [|exact OA]. apply req_closer.
  - intros d p k par o l e c b lc cs df rest K OP L KC KB LB IH. apply (st_switch ns is_string true d p k par); auto. apply req_listed; [now apply (req_closer par)|exact L].
  - intros. now apply st_break.
  - intros. now apply st_continue.
  - intros. now apply st_return.
  - intros. apply st_return_value; auto. now apply req_stops.
  - intros. apply st_assert; auto. now apply req_parens.
  - intros. apply st_delete; auto. now apply req_stops.
  - intros. now apply bl_nil.
  - intros. now apply bl_cons.
  - intros. now apply lb_end.
  - intros. eapply lb_case; eauto.
  - intros. eapply lb_default; eauto.
Qed.
Lemma required_iff d p ts s rest : no_exit ts -> read_statement ns is_string d p ts = PGood s rest <-> exists l, ts = l ++ rest /\ states ns is_string false d p l s rest.
Proof.
  intros NE. split; [now apply statement_sound|]. intros (l & -> & H). apply statement_complete. now apply req_all.
Qed.
End Required.
End Whole.
