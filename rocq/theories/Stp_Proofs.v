(* What the statement parser reads is in the grammar.  C48. *)
From Verif Require Import Base Par_Model Par_Spec Par_Proofs Par_Complete Par_Whole Stp_Model Stp_Spec.
From Coq Require Import Lia.

Scheme states_ind2 := Induction for states Sort Prop
  with block_ind2 := Induction for block Sort Prop
  with labels_ind2 := Induction for labels Sort Prop.
Combined Scheme states_mut from states_ind2, block_ind2, labels_ind2.

Lemma at_first p ts : at_ p ts = None <-> first (fun x => kind x <> P p) ts.
Proof.
  destruct ts as [|t ts]; cbn; [split; auto|]. destruct (kind t) as [| | | | | | | |q| |]; try (split; [intros _; discriminate|reflexivity]).
  destruct (punct_beq p q) eqn:E.
  - apply punct_beq_eq in E. subst. split; [discriminate|]. intros H. now destruct H.
  - split; [|reflexivity]. intros _ [= ->]. rewrite punct_beq_refl in E. discriminate.
Qed.
Lemma glued_first ts : glued ts = None <-> first (fun x => kind x <> Colon true) ts.
Proof.
  destruct ts as [|t ts]; cbn; [split; auto|]. destruct (kind t) as [| | | | | | | | |[]|]; try (split; [intros _; discriminate|reflexivity]).
  split; [discriminate|]. intros H. now destruct H.
Qed.
Lemma at_kw_some k ts r : (k = KElse \/ k = KWhile \/ k = KDo \/ k = KDefault \/ k = KCase) -> at_kw k ts = Some r <-> exists t, kw_tok k t /\ ts = t :: r.
Proof.
  intros C. split.
  - destruct ts as [|t ts]; [discriminate|]. cbn. unfold is_kw, kw_tok. intros H. exists t.
    destruct C as [-> |[-> |[-> |[-> | -> ]]]]; destruct (kind t) as [| | | | | | | | | |[| | | | | | | | | | | | | |z]]; try discriminate H; injection H as ->; auto.
  - intros (t & K & ->). cbn. unfold is_kw. unfold kw_tok in K. rewrite K. destruct C as [-> |[-> |[-> |[-> | -> ]]]]; reflexivity.
Qed.
Lemma at_kw_first k ts : (k = KElse \/ k = KWhile \/ k = KDo \/ k = KDefault \/ k = KCase) -> at_kw k ts = None <-> first (fun x => ~ kw_tok k x) ts.
Proof.
  intros C. split.
  - destruct ts as [|t ts]; [cbn; auto|]. intros H. cbn [first]. intros K. assert (E : at_kw k (t :: ts) = Some ts) by (apply at_kw_some; eauto). congruence.
  - destruct ts as [|t ts]; [auto|]. intros H. destruct (at_kw k (t :: ts)) as [r|] eqn:E; [|reflexivity]. apply at_kw_some in E; [|exact C]. destruct E as (t' & K & [= <- <-]). contradiction.
Qed.
Lemma at_colon_some ts r : at_colon ts = Some r <-> exists t g, kind t = Colon g /\ ts = t :: r.
Proof.
  split.
  - destruct ts as [|t ts]; [discriminate|]. cbn. destruct (kind t) as [| | | | | | | | |g|] eqn:K; try discriminate. intros [= ->]. eauto.
  - intros (t & g & K & ->). cbn. now rewrite K.
Qed.
Lemma is_decl_looks ts : is_decl ts = true <-> looks_declared ts.
Proof.
  split.
  - destruct ts as [|t r]; [discriminate|]. cbn. destruct (kind t) as [s| | | |s| | | | | |] eqn:K; try discriminate; [|intros _; now apply (ld_type t s)].
    destruct (glued r) eqn:G; [discriminate|]. destruct (at_ PLBrk r) as [r1|] eqn:O.
    + apply at_some in O. destruct O as (o & KO & ->). destruct (at_ PRBrk r1) as [r2|] eqn:C; [|discriminate]. apply at_some in C. destruct C as (c & KC & ->). intros _. now apply (ld_array t s).
    + destruct (symbol true r) as [(s2 & r1)|] eqn:SY; [|discriminate]. intros _. pose proof SY as SY2. apply symbol_some in SY2. destruct SY2 as (t2 & K2 & ->).
      apply (ld_names t s t2 s2); auto. cbn in SY. rewrite K2 in SY. apply glued_first. destruct (glued r1); [discriminate|reflexivity].
  - intros H. destruct H as [t s r K|t s t2 s2 r K K2 F|t s o c r K KO KC]; cbn; rewrite K; [reflexivity| |].
    + cbn [glued]. rewrite K2. apply glued_first in F. rewrite F. reflexivity.
    + rewrite KO. cbn. rewrite KC. reflexivity.
Qed.
Lemma is_decl_not ts : is_decl ts = false <-> ~ looks_declared ts.
Proof. rewrite <- is_decl_looks. destruct (is_decl ts); split; congruence. Qed.

Section Sound.
Variable ns : bool.
Variable is_string : Z -> bool.
Notation listed := (listed ns false). Notation parenthesised := (parenthesised ns false). Notation states := (states ns is_string false).
Notation block := (block ns is_string false). Notation labels := (labels ns is_string false). Notation declaration := (declaration ns is_string false).

Lemma commas_stop f t : forall ts es r, commas ns f t ts = PGood es r -> at_ PComma r = None.
Proof.
  induction f as [|f IH]; intros ts es r H; [discriminate|]. cbn [commas] in H. apply pbind_good in H. destruct H as (e & r1 & _ & H).
  destruct (at_ PComma r1) as [r2|] eqn:C.
  - apply pbind_good in H. destruct H as (l & r3 & H & [= <- <-]). now apply IH in H.
  - injection H as <- <-. exact C.
Qed.
Lemma commas_sound f t ts es r : commas ns f t ts = PGood es r -> exists l, ts = l ++ r /\ sequence ns t l es /\ first (fun x => kind x <> P PComma) r.
Proof.
  intros H. pose proof (commas_stop _ _ _ _ _ H) as C. destruct (all_sound ns f) as (_ & _ & _ & _ & _ & _ & _ & _ & _ & S & _). apply S in H. destruct H as (l & -> & Q).
  exists l. split; [reflexivity|]. split; [exact Q|]. now apply at_first.
Qed.
Lemma sequence_some t l es : sequence ns t l es -> es <> []. Proof. intros H. destruct H; discriminate. Qed.
Lemma exprs_sound ts e r : exprs ns ts = PGood e r -> exists l, ts = l ++ r /\ listed true l e r.
Proof.
  unfold exprs. intros H. apply pbind_good in H. destruct H as (es & r1 & H & [= <- <-]). apply commas_sound in H. destruct H as (l & -> & Q & C).
  exists l. split; [reflexivity|]. split; [|split; [discriminate|exact C]]. exists es. split; [exact Q|].
  apply sequence_some in Q. destruct es as [|e1 [|e2 es]]; [contradiction|now left|right; split; [cbn; lia|reflexivity]].
Qed.
Lemma listed_one l e c rest : listed true l e (c :: rest) -> listed true l e [c].
Proof. intros (H & _ & C). split; [exact H|]. split; [discriminate|exact C]. Qed.
Lemma parens_sound ts e r : parens ns ts = PGood e r -> exists l, ts = l ++ r /\ parenthesised l e.
Proof.
  unfold parens. intros H. apply need_good in H. destruct H as (o & r1 & KO & -> & H). apply pbind_good in H. destruct H as (e' & r2 & H & H2). apply exprs_sound in H. destruct H as (l & -> & L).
  apply need_good in H2. destruct H2 as (c & r3 & KC & -> & [= <- <-]). exists (o :: l ++ [c]). split; [cbn; now rewrite <- app_assoc|].
  exists o, l, c. split; [reflexivity|]. split; [exact KO|]. split; [exact KC|]. now apply (listed_one l e' c r3).
Qed.
Lemma term_sound ts r : term ns ts = Some r -> exists c, ts = c ++ r /\ stops ns c r.
Proof.
  destruct ts as [|t ts]; cbn.
  - destruct ns eqn:N; [discriminate|]. intros [= <-]. exists []. split; [reflexivity|]. right. split; [reflexivity|]. split; [reflexivity|exact I].
  - assert (D : (kind t <> P PSemi) -> (if negb ns && bol t then Some (t :: ts) else None) = Some r -> exists c, t :: ts = c ++ r /\ stops ns c r).
    { intros K H. destruct ns eqn:N; [discriminate|]. cbn in H. destruct (bol t) eqn:B; [|discriminate]. injection H as <-. exists []. split; [reflexivity|]. right. repeat split; auto. }
    destruct (kind t) as [| | | | | | | |p| |] eqn:K; try (apply D; discriminate). destruct p; try (apply D; discriminate). intros [= <-]. exists [t]. split; [reflexivity|]. left. eauto.
Qed.
Lemma needterm_sound {A} ts (a a' : A) r : needterm ns ts a = PGood a' r -> a' = a /\ exists c, ts = c ++ r /\ stops ns c r.
Proof. unfold needterm. destruct (term ns ts) as [r1|] eqn:T; [|discriminate]. intros [= <- <-]. split; [reflexivity|]. now apply term_sound. Qed.

Lemma var_init_sound ts e r eq : kind eq = P (PAsg ASet) -> var_init ns is_string ts = PGood e r -> exists l, ts = l ++ r /\ initialiser ns is_string false (eq :: l) (Some e) r.
Proof.
  intros KE. destruct ts as [|t ts]; [discriminate|]. unfold var_init.
  assert (D : (kind t <> P PLBrace /\ forall v, kind t = Lit v -> is_string v = false) -> expression ns true (t :: ts) = PGood e r ->
     exists l, t :: ts = l ++ r /\ initialiser ns is_string false (eq :: l) (Some e) r).
  { intros K H. apply expression_sound in H. destruct H as (l & E & R). exists l. split; [exact E|]. apply i_expr; auto; [discriminate|].
    destruct (reads_head ns _ _ _ _ R) as (tok & l' & -> & _). injection E as -> _. exact K. }
  destruct (kind t) as [|v| | | | | | |p| |] eqn:K; try (apply D; split; [discriminate|intros ? [=]]; fail).
  - destruct (is_string v) eqn:S; [|apply D; split; [discriminate|intros ? [= <-]; exact S]]. intros [= <- <-]. exists [t]. split; [reflexivity|]. now apply i_string.
  - destruct p; try (apply D; split; [discriminate|intros ? [=]]; fail). discriminate.
Qed.
Lemma vars_sound f : forall ts vs r, vars ns is_string f ts = PGood vs r -> exists l, ts = l ++ r /\ variables ns is_string false l vs r.
Proof.
  induction f as [|f IH]; intros ts vs r H; [discriminate|]. cbn [vars] in H. destruct (symbol true ts) as [(s & r0)|] eqn:SY; [|discriminate].
  pose proof SY as SY2. apply symbol_some in SY2. destruct SY2 as (n & KN & ->).
  assert (G : first (fun x => kind x <> Colon true) r0). { apply glued_first. cbn in SY. rewrite KN in SY. destruct (glued r0); [discriminate|reflexivity]. }
  apply pbind_good in H. destruct H as (o & r1 & H1 & H).
  assert (IN : exists li, r0 = li ++ r1 /\ initialiser ns is_string false li o r1).
  { destruct (at_ (PAsg ASet) r0) as [r2|] eqn:EQ.
    - apply at_some in EQ. destruct EQ as (eq & KE & ->). apply pbind_good in H1. destruct H1 as (e & r3 & H1 & [= <- <-]). apply (var_init_sound _ _ _ eq KE) in H1.
      destruct H1 as (l & -> & V). exists (eq :: l). auto.
    - injection H1 as <- <-. exists []. split; [reflexivity|]. apply i_none. apply at_first in EQ. destruct r0 as [|x r0]; [exact I|]. cbn in *. auto. }
  destruct IN as (li & -> & V). destruct (at_ PComma r1) as [r2|] eqn:C.
  - apply at_some in C. destruct C as (c & KC & ->). apply pbind_good in H. destruct H as (l & r3 & H & [= <- <-]). apply IH in H. destruct H as (l2 & -> & W).
    exists (n :: li ++ c :: l2). split; [cbn; now rewrite <- app_assoc|]. now apply v_more.
  - injection H as <- <-. exists (n :: li). split; [reflexivity|]. apply v_last; auto. now apply at_first.
Qed.
Lemma local_decl_sound ts s r : local_decl ns is_string ts = PGood s r -> exists l, ts = l ++ r /\ declaration l s r.
Proof.
  unfold local_decl. destruct (typename true ts) as [(ty & r0)|] eqn:TY; [|discriminate]. apply typename_some in TY. destruct TY as (t & K & ->). intros H.
  apply pbind_good in H. destruct H as (vs & r1 & H & [= <- <-]). apply vars_sound in H. destruct H as (l & -> & V). exists (t :: l). split; [reflexivity|]. now apply d_vars.
Qed.

Definition Sst f := forall d p ts s r, no_exit ts -> statement ns is_string f d p ts = PGood s r -> exists l, ts = l ++ r /\ states d p l s r.
Definition Sbk f := forall p ts ss r, no_exit ts -> compound ns is_string f p ts = PGood ss r -> exists l c, ts = l ++ c :: r /\ kind c = P PRBrace /\ block p l ss (c :: r).
Definition Slb f := forall p df ts x r, no_exit ts -> cases ns is_string f p df ts = PGood x r -> exists l, ts = l ++ r /\ labels p df l (fst x) (snd x) r.

Lemma ne_app l r : no_exit (l ++ r) -> no_exit r.
Proof. unfold no_exit. rewrite Forall_app. tauto. Qed.
Lemma ne_cons t r : no_exit (t :: r) -> no_exit r.
Proof. intros H. now inversion H. Qed.

Lemma first_mono (P Q : token -> Prop) l : (forall x, P x -> Q x) -> first P l -> first Q l.
Proof. destruct l; cbn; auto. Qed.
Lemma first_app (P : token -> Prop) l r : first P l -> first P r -> first P (l ++ r).
Proof. destruct l; cbn; auto. Qed.
Lemma first_app_l (P : token -> Prop) l r : first P (l ++ r) -> first P l.
Proof. destruct l; cbn; auto. Qed.

Definition expr_stmt ts := pbind (exprs ns ts) (fun e r => needterm ns r (SExpr e)).
Lemma sequence_head t l es : sequence ns t l es -> exists tok r, l = tok :: r /\ startb (kind tok) = true.
Proof.
  intros H. destruct H as [? l e R|? l e c l2 es R _ _]; destruct (reads_head ns _ _ _ _ R) as (tok & r & -> & S); eexists _, _; (split; [reflexivity|exact S]).
Qed.
Lemma listed_head b t l e rest : Stp_Spec.listed ns b t l e rest -> exists tok r, l = tok :: r /\ startb (kind tok) = true.
Proof. intros ((es & Q & _) & _). exact (sequence_head _ _ _ Q). Qed.
Lemma expr_stmt_sound d p ts s r : expr_stmt ts = PGood s r -> is_decl ts = false -> first (fun x => kind x <> P PLBrace) ts ->
  (first (fun x => kind x <> New) ts \/ exists k t s o r0, ts = k :: t :: o :: r0 /\ kind k = New /\ kind t = Sym s /\ kind o = P PLPar) ->
  exists l, ts = l ++ r /\ states d p l s r.
Proof.
  unfold expr_stmt. intros H ND NB NN. apply pbind_good in H. destruct H as (e & r1 & H & H2). apply exprs_sound in H. destruct H as (l & -> & L).
  apply needterm_sound in H2. destruct H2 as (-> & c & -> & S). exists (l ++ c). split; [now rewrite app_assoc|]. apply st_expr; auto.
  destruct (listed_head _ _ _ _ _ L) as (tok & l' & -> & SB).
  split; [now apply is_decl_not|]. split; [exact NB|]. destruct NN as [NN|(k & t & s & o & r0 & E & KK & KT & KO)]; [left; exact NN|]. right.
  cbn in E. injection E as -> E. exists k, t, s, o.
  (* the reading of an expression that begins with new goes past the parenthesis *)
  destruct L as ((es & Q & _) & _).
  assert (HD : exists l0 e0 l1, reads ns true 12 l0 e0 /\ k :: l' = l0 ++ l1).
  { inversion Q as [? ? e0 R|? l0 e0 ? l2 ? R]; subst; [exists (k :: l'), e0, []; split; [exact R|now rewrite app_nil_r]|exists l0, e0; eexists; split; [exact R|reflexivity]]. }
  destruct HD as (l0 & e0 & l1 & R & E0).
  assert (LEN : forall q m e1, reads ns q m l0 e1 -> exists a b z, l0 = k :: a :: b :: z).
  { clear -KK E0. intros q m e1 R. remember l0 as l2 eqn:EL. revert l1 E0. 
    assert (G : forall q m l2 e1, reads ns q m l2 e1 -> forall l1 l', k :: l' = l2 ++ l1 -> exists a b z, l2 = k :: a :: b :: z).
    { clear -KK. intros q m l2 e1 R. induction R; intros lx ly E; try (destruct (IHR _ _ E) as (x & y & z & ->); eexists _, _, _; reflexivity).
      - destruct (operand_head ns _ _ _ _ H) as (tok & r & -> & OS & _). cbn in E. injection E as <- _. rewrite KK in OS. discriminate.
      - cbn in E. injection E as <- _. rewrite KK in H. discriminate.
      - cbn in E. injection E as <- _. rewrite KK in H. discriminate.
      - destruct (operand_head ns _ _ _ _ H) as (tok' & r & -> & OS & _). cbn in E. injection E as <- _. rewrite KK in OS. discriminate.
      - cbn in E. injection E as <- _. rewrite KK in H. discriminate.
      - cbn in E. injection E as <- _. eauto.
      - cbn in E. injection E as <- _. eauto.
      - cbn in E. injection E as <- _. rewrite KK in H. discriminate.
      - rewrite <- app_assoc in E. destruct (IHR1 _ _ E) as (x & y & z & ->). eexists _, _, _. reflexivity.
      - rewrite <- app_assoc in E. destruct (IHR1 _ _ E) as (x & y & z & ->). eexists _, _, _. reflexivity.
      - rewrite <- app_assoc in E. destruct (IHR _ _ E) as (x & y & z & ->). eexists _, _, _. reflexivity.
      - rewrite <- app_assoc in E. destruct (IHR1 _ _ E) as (x & y & z & ->). eexists _, _, _. reflexivity.
      - rewrite <- app_assoc in E. destruct (IHR1 _ _ E) as (x & y & z & ->). eexists _, _, _. reflexivity. }
    intros l1 E0. exact (G q m l2 e1 R l1 l' E0). }
  destruct (LEN _ _ _ R) as (a & b & z & ->). cbn in E0. injection E0 as ->. cbn in E. injection E as -> -> _. eexists. split; [reflexivity|]. auto.
Qed.

Lemma closer_sound (par : bool) ts r : (if par then at_ PRPar ts else at_kw KDo ts) = Some r -> exists c, ts = c :: r /\ closer par c.
Proof.
  destruct par; intros H.
  - apply at_some in H. destruct H as (c & K & ->). exists c. auto.
  - apply at_kw_some in H; [|auto]. destruct H as (c & K & ->). exists c. auto.
Qed.
Lemma opening_sound r (par : bool) r0 : match at_ PLPar r with Some r0 => (true, r0) | None => (false, r) end = (par, r0) -> exists o, r = o ++ r0 /\ opening par o r0.
Proof.
  destruct (at_ PLPar r) as [r1|] eqn:E; intros [= <- <-].
  - apply at_some in E. destruct E as (t & K & ->). exists [t]. split; [reflexivity|]. exists t. auto.
  - exists []. split; [reflexivity|]. split; [reflexivity|]. now apply at_first.
Qed.

Definition for_init_of r0 : pres (option stmt) :=
  match at_ PSemi r0 with
  | Some r1 => PGood None r1
  | None =>
    if is_decl r0 then pbind (local_decl ns is_string r0) (fun s r1 => need PSemi r1 (fun r2 => PGood (Some s) r2))
    else match r0 with
    | t0 :: _ => match kind t0 with New => PBad | _ => pbind (exprs ns r0) (fun e r1 => need PSemi r1 (fun r2 => PGood (Some (SExpr e)) r2)) end
    | [] => PBad
    end
  end.
Lemma for_init_sound r0 i r : for_init_of r0 = PGood i r -> exists l, r0 = l ++ r /\ for_init ns is_string false l i r.
Proof.
  unfold for_init_of. destruct (at_ PSemi r0) as [r1|] eqn:S.
  - intros [= <- <-]. apply at_some in S. destruct S as (t & K & ->). exists [t]. split; [reflexivity|]. now apply fi_none.
  - destruct (is_decl r0) eqn:D.
    + intros H. apply pbind_good in H. destruct H as (s & r1 & H & H2). apply local_decl_sound in H. destruct H as (l & -> & DC). apply need_good in H2. destruct H2 as (t & r2 & K & -> & [= <- <-]).
      exists (l ++ [t]). split; [now rewrite <- app_assoc|]. apply fi_decl; auto. now apply is_decl_looks.
    + destruct r0 as [|t0 r0]; [discriminate|]. intros H.
      assert (NN : kind t0 <> New). { intros K. rewrite K in H. discriminate. }
      assert (H' : pbind (exprs ns (t0 :: r0)) (fun e r1 => need PSemi r1 (fun r2 => PGood (Some (SExpr e)) r2)) = PGood i r) by (destruct (kind t0); try exact H; contradiction). clear H.
      apply pbind_good in H'. destruct H' as (e & r1 & H & H2). apply exprs_sound in H. destruct H as (l & E & L). apply need_good in H2. destruct H2 as (t & r2 & K & -> & [= <- <-]).
      exists (l ++ [t]). split; [rewrite E; now rewrite <- app_assoc|]. apply fi_expr; auto.
      * apply is_decl_not. rewrite <- E. exact D.
      * destruct (listed_head _ _ _ _ _ L) as (tok & l' & -> & _). injection E as -> _. exact NN.
Qed.
Lemma optional_sound (ok : token -> Prop) (f : list token -> option (list token)) r1 c r :
  (forall ts r, f ts = Some r -> exists t, ts = t :: r /\ ok t) ->
  match f r1 with Some r2 => PGood None r2 | None => pbind (exprs ns r1) (fun e r2 => match f r2 with Some r3 => PGood (Some e) r3 | None => PBad end) end = PGood c r ->
  exists l, r1 = l ++ r /\ optional ns false ok l c r.
Proof.
  intros F H. destruct (f r1) as [r2|] eqn:E.
  - injection H as <- <-. apply F in E. destruct E as (t & -> & K). exists [t]. split; [reflexivity|]. now apply op_none.
  - apply pbind_good in H. destruct H as (e & r2 & H & H2). apply exprs_sound in H. destruct H as (l & -> & L). destruct (f r2) as [r3|] eqn:E2; [|discriminate]. injection H2 as <- <-.
    apply F in E2. destruct E2 as (t & -> & K). exists (l ++ [t]). split; [now rewrite <- app_assoc|]. now apply op_some.
Qed.

Lemma s_if f d p k r s r1 : Sst f -> no_exit r -> kw_tok KIf k ->
  pbind (parens ns r) (fun c r1 => pbind (statement ns is_string f false p r1) (fun a r2 =>
      match at_kw KElse r2 with Some r3 => pbind (statement ns is_string f false p r3) (fun b r4 => PGood (SIf c a (Some b)) r4) | None => PGood (SIf c a None) r2 end)) = PGood s r1 ->
  exists l, k :: r = l ++ r1 /\ states d p l s r1.
Proof.
  intros IH NE K H. apply pbind_good in H. destruct H as (c & r2 & H & H2). apply parens_sound in H. destruct H as (lc & -> & PC). apply ne_app in NE.
  apply pbind_good in H2. destruct H2 as (a & r3 & H & H2). apply IH in H; [|exact NE]. destruct H as (l1 & -> & SA). apply ne_app in NE.
  destruct (at_kw KElse r3) as [r4|] eqn:E.
  - apply at_kw_some in E; [|auto]. destruct E as (k2 & K2 & ->). apply ne_cons in NE. apply pbind_good in H2. destruct H2 as (b & r5 & H & [= <- <-]). apply IH in H; [|exact NE].
    destruct H as (l2 & -> & SB). exists (k :: lc ++ l1 ++ k2 :: l2). split; [cbn; now rewrite <- !app_assoc|]. now apply st_else.
  - injection H2 as <- <-. exists (k :: lc ++ l1). split; [cbn; now rewrite <- !app_assoc|]. apply st_if; auto. apply at_kw_first; auto.
Qed.
Lemma s_do f d p k r s r1 : Sst f -> no_exit r -> kw_tok KDo k ->
  pbind (statement ns is_string f false true r) (fun s r1 =>
    match at_kw KWhile r1 with
    | Some r2 =>
      match at_ PLPar r2 with
      | Some r3 => pbind (exprs ns r3) (fun c r4 => need PRPar r4 (fun r5 => needterm ns r5 (SDoWhile s c)))
      | None => pbind (exprs ns r2) (fun c r4 => needterm ns r4 (SDoWhile s c))
      end
    | None => PBad
    end) = PGood s r1 ->
  exists l, k :: r = l ++ r1 /\ states d p l s r1.
Proof.
  intros IH NE K H. apply pbind_good in H. destruct H as (s0 & r2 & H & H2). apply IH in H; [|exact NE]. destruct H as (l & -> & SA).
  destruct (at_kw KWhile r2) as [r3|] eqn:E; [|discriminate]. apply at_kw_some in E; [|auto]. destruct E as (k2 & K2 & ->). destruct (at_ PLPar r3) as [r4|] eqn:O.
  - apply at_some in O. destruct O as (o & KO & ->). apply pbind_good in H2. destruct H2 as (c & r5 & H & H2). apply exprs_sound in H. destruct H as (lc & -> & L).
    apply need_good in H2. destruct H2 as (cl & r6 & KC & -> & H2). apply needterm_sound in H2. destruct H2 as (-> & lt & -> & ST).
    exists (k :: l ++ k2 :: (o :: lc ++ [cl]) ++ lt). split; [cbn; rewrite <- !app_assoc; cbn; now rewrite <- !app_assoc|].
    apply st_do; auto.
    + cbn. rewrite <- app_assoc. exact SA.
    + exists o, lc, cl. split; [reflexivity|]. split; [exact KO|]. split; [exact KC|]. now apply (listed_one lc c cl (lt ++ r1)).
  - apply at_first in O. apply pbind_good in H2. destruct H2 as (c & r5 & H & H2). apply exprs_sound in H. destruct H as (lc & -> & L).
    apply needterm_sound in H2. destruct H2 as (-> & lt & -> & ST). exists (k :: l ++ k2 :: lc ++ lt). split; [cbn; rewrite <- !app_assoc; cbn; now rewrite <- !app_assoc|].
    apply st_do_old; auto. now apply first_app_l in O.
Qed.
Lemma s_for f d p k r s r1 : Sst f -> no_exit r -> kw_tok KFor k ->
  (let '(par, r0) := match at_ PLPar r with Some r0 => (true, r0) | None => (false, r) end in
   let closes ts := if par then at_ PRPar ts else at_kw KDo ts in
   pbind (for_init_of r0) (fun init r1 =>
   pbind (match at_ PSemi r1 with Some r2 => PGood None r2 | None => pbind (exprs ns r1) (fun e r2 => need PSemi r2 (fun r3 => PGood (Some e) r3)) end) (fun c r2 =>
   pbind (match closes r2 with Some r3 => PGood None r3 | None => pbind (exprs ns r2) (fun e r3 => match closes r3 with Some r4 => PGood (Some e) r4 | None => PBad end) end) (fun adv r3 =>
   pbind (statement ns is_string f false true r3) (fun s r4 => PGood (SFor init c adv s) r4))))) = PGood s r1 ->
  exists l, k :: r = l ++ r1 /\ states d p l s r1.
Proof.
  intros IH NE K H. destruct (match at_ PLPar r with Some r0 => (true, r0) | None => (false, r) end) as [par r0] eqn:OP. apply opening_sound in OP. destruct OP as (o & -> & OP). apply ne_app in NE.
  apply pbind_good in H. destruct H as (init & r2 & H & H2). apply for_init_sound in H. destruct H as (li & -> & FI). apply ne_app in NE.
  apply pbind_good in H2. destruct H2 as (c & r3 & H & H2). apply (optional_sound (fun t => kind t = P PSemi)) in H.
  2: { intros ts rr E. apply at_some in E. destruct E as (t & KT & ->). eauto. }
  destruct H as (lc & -> & OC). apply ne_app in NE. apply pbind_good in H2. destruct H2 as (adv & r4 & H & H2). apply (optional_sound (closer par) (fun ts => if par then at_ PRPar ts else at_kw KDo ts)) in H; [|intros ts rr E; now apply closer_sound].
  destruct H as (la & -> & OA). apply ne_app in NE. apply pbind_good in H2. destruct H2 as (s0 & r5 & H & [= <- <-]). apply IH in H; [|exact NE]. destruct H as (l & -> & SA).
  exists (k :: o ++ li ++ lc ++ la ++ l). split; [cbn; now rewrite <- !app_assoc|]. now apply (st_for ns is_string false d p k par).
Qed.
Lemma s_switch f d p k r s r1 : Slb f -> no_exit r -> kw_tok KSwitch k ->
  (let '(par, r0) := match at_ PLPar r with Some r0 => (true, r0) | None => (false, r) end in
   pbind (exprs ns r0) (fun e r1 =>
   match (if par then at_ PRPar r1 else at_kw KDo r1) with
   | Some r2 => need PLBrace r2 (fun r3 => pbind (cases ns is_string f p false r3) (fun ld r4 => PGood (SSwitch e (fst ld) (snd ld)) r4))
   | None => PBad
   end)) = PGood s r1 ->
  exists l, k :: r = l ++ r1 /\ states d p l s r1.
Proof.
  intros IH NE K H. destruct (match at_ PLPar r with Some r0 => (true, r0) | None => (false, r) end) as [par r0] eqn:OP. apply opening_sound in OP. destruct OP as (o & -> & OP). apply ne_app in NE.
  apply pbind_good in H. destruct H as (e & r2 & H & H2). apply exprs_sound in H. destruct H as (l & -> & L). apply ne_app in NE.
  destruct (if par then at_ PRPar r2 else at_kw KDo r2) as [r3|] eqn:C; [|discriminate]. apply closer_sound in C. destruct C as (c & -> & KC). apply ne_cons in NE.
  apply need_good in H2. destruct H2 as (b & r4 & KB & -> & H2). apply ne_cons in NE. apply pbind_good in H2. destruct H2 as (x & r5 & H & [= <- <-]). apply IH in H; [|exact NE]. destruct H as (lc & -> & LB).
  exists (k :: o ++ l ++ c :: b :: lc). split; [cbn; now rewrite <- !app_assoc|]. now apply (st_switch ns is_string false d p k par).
Qed.
Lemma s_statement f : Sst f -> Sbk f -> Slb f -> Sst (S f).
Proof.
  intros IH IB IL d p ts s r NE H. cbn [statement] in H. fold (statement ns is_string) (compound ns is_string) (cases ns is_string) in H. destruct (is_decl ts) eqn:ID.
  - destruct d; [|discriminate]. apply pbind_good in H. destruct H as (s0 & r1 & H & H2). apply local_decl_sound in H. destruct H as (l & -> & D). apply needterm_sound in H2. destruct H2 as (-> & c & -> & ST).
    exists (l ++ c). split; [now rewrite app_assoc|]. apply st_decl; auto. now apply is_decl_looks.
  - destruct ts as [|t ts]; [discriminate|]. fold (expr_stmt (t :: ts)) in H. pose proof (ne_cons _ _ NE) as NE2.
    assert (E : kind t <> P PLBrace -> kind t <> New -> expr_stmt (t :: ts) = PGood s r -> exists l, t :: ts = l ++ r /\ states d p l s r).
    { intros N1 N2 HH. apply (expr_stmt_sound d p _ _ _ HH ID); [exact N1|left; exact N2]. }
    destruct (kind t) as [z|z| | |z| | | |q|g|k] eqn:K; try (apply E; [discriminate|discriminate|exact H]; fail).
    + destruct (symbol true ts) as [(z & r1)|] eqn:SY; [|discriminate]. apply symbol_some in SY. destruct SY as (t2 & K2 & ->). destruct (at_ PLPar r1) as [r2|] eqn:O; [|discriminate].
      apply at_some in O. destruct O as (o & KO & ->). apply (expr_stmt_sound d p _ _ _ H ID); [cbn; rewrite K; discriminate|]. right. exists t, t2, z, o, r2. auto.
    + destruct q; try (apply E; [discriminate|discriminate|exact H]; fail); try discriminate.
      apply pbind_good in H. destruct H as (l & r1 & H & [= <- <-]). apply IB in H; [|exact NE2]. destruct H as (l2 & c & -> & KC & BL).
      exists (t :: l2 ++ [c]). split; [cbn; now rewrite <- app_assoc|]. now apply st_block.
    + clear E. assert (EX : kind t <> Other KExit) by (inversion NE; assumption). destruct k; try discriminate; try (now destruct EX).
      * now apply (s_if f d p t ts s r).
      * apply pbind_good in H. destruct H as (c & r1 & H & H2). apply parens_sound in H. destruct H as (lc & -> & PC). apply ne_app in NE2. apply pbind_good in H2. destruct H2 as (s0 & r2 & H & [= <- <-]).
        apply IH in H; [|exact NE2]. destruct H as (l & -> & SA). exists (t :: lc ++ l). split; [cbn; now rewrite <- app_assoc|]. now apply st_while.
      * now apply (s_do f d p t ts s r).
      * now apply (s_for f d p t ts s r).
      * now apply (s_switch f d p t ts s r).
      * destruct p; [|discriminate]. apply needterm_sound in H. destruct H as (-> & c & -> & ST). exists (t :: c). split; [reflexivity|]. now apply st_break.
      * destruct p; [|discriminate]. apply needterm_sound in H. destruct H as (-> & c & -> & ST). exists (t :: c). split; [reflexivity|]. now apply st_continue.
      * destruct (term ns ts) as [r1|] eqn:T.
        -- injection H as <- <-. apply term_sound in T. destruct T as (c & -> & ST). exists (t :: c). split; [reflexivity|]. now apply st_return.
        -- apply pbind_good in H. destruct H as (e & r1 & H & H2). apply exprs_sound in H. destruct H as (l & -> & L). apply needterm_sound in H2. destruct H2 as (-> & c & -> & ST).
           exists (t :: l ++ c). split; [cbn; now rewrite <- app_assoc|]. apply st_return_value; auto.
           destruct (listed_head _ _ _ _ _ L) as (tok & l' & -> & _). cbn in T |- *. destruct ns; [now left|]. right. cbn in T.
           destruct (bol tok); [|reflexivity]. destruct (kind tok) as [| | | | | | | |q| |]; try discriminate. destruct q; discriminate.
      * apply pbind_good in H. destruct H as (e & r1 & H & H2). apply parens_sound in H. destruct H as (lc & -> & PC). apply needterm_sound in H2. destruct H2 as (-> & c & -> & ST).
        exists (t :: lc ++ c). split; [cbn; now rewrite <- app_assoc|]. now apply st_assert.
      * apply pbind_good in H. destruct H as (e & r1 & H & H2). apply exprs_sound in H. destruct H as (lc & -> & PC). apply needterm_sound in H2. destruct H2 as (-> & c & -> & ST).
        exists (t :: lc ++ c). split; [cbn; now rewrite <- app_assoc|]. now apply st_delete.
Qed.
Lemma s_block f : Sst f -> Sbk f -> Sbk (S f).
Proof.
  intros IH IB p ts ss r NE H. cbn [compound] in H. fold (statement ns is_string) (compound ns is_string) in H. destruct (at_ PRBrace ts) as [r1|] eqn:E.
  - injection H as <- <-. apply at_some in E. destruct E as (c & K & ->). exists [], c. split; [reflexivity|]. split; [exact K|]. now apply bl_nil.
  - apply pbind_good in H. destruct H as (s & r1 & H & H2). apply IH in H; [|exact NE]. destruct H as (l & -> & SA). apply ne_app in NE. apply pbind_good in H2. destruct H2 as (l0 & r2 & H & [= <- <-]).
    apply IB in H; [|exact NE]. destruct H as (l2 & c & -> & K & BL). exists (l ++ l2), c. split; [now rewrite <- app_assoc|]. split; [exact K|]. now apply bl_cons.
Qed.
Lemma true_labels p l cs df r : labels p true l cs df r -> cs = [] /\ df = None.
Proof. intros H. inversion H. auto. Qed.
Lemma s_labels f : Sst f -> Slb f -> Slb (S f).
Proof.
  intros IH IL p df ts x r NE H. cbn [cases] in H. fold (statement ns is_string) (cases ns is_string) in H. destruct (at_ PRBrace ts) as [r1|] eqn:E.
  - injection H as <- <-. apply at_some in E. destruct E as (c & K & ->). exists [c]. split; [reflexivity|]. now apply lb_end.
  - destruct (at_kw KCase ts) as [r1|] eqn:C.
    + destruct df; [discriminate|]. apply at_kw_some in C; [|auto 6]. destruct C as (k & K & ->). apply ne_cons in NE. apply pbind_good in H. destruct H as (es & r2 & H & H2).
      apply commas_sound in H. destruct H as (le & -> & Q & _). apply ne_app in NE. destruct (at_colon r2) as [r3|] eqn:CO; [|discriminate]. apply at_colon_some in CO. destruct CO as (col & g & KC & ->).
      apply ne_cons in NE. apply pbind_good in H2. destruct H2 as (s & r4 & H & H2). apply IH in H; [|exact NE]. destruct H as (l & -> & SA). apply ne_app in NE.
      apply pbind_good in H2. destruct H2 as (x0 & r5 & H & [= <- <-]). apply IL in H; [|exact NE]. destruct H as (l2 & -> & LB).
      exists (k :: le ++ col :: l ++ l2). split; [cbn; rewrite <- app_assoc; cbn; now rewrite <- app_assoc|]. cbn [fst snd]. now apply (lb_case ns is_string false p k le es col g).
    + destruct (at_kw KDefault ts) as [r1|] eqn:D; [|discriminate]. destruct df; [discriminate|]. apply at_kw_some in D; [|auto 6]. destruct D as (k & K & ->). apply ne_cons in NE.
      destruct (at_colon r1) as [r3|] eqn:CO; [|discriminate]. apply at_colon_some in CO. destruct CO as (col & g & KC & ->). apply ne_cons in NE.
      apply pbind_good in H. destruct H as (s & r4 & H & H2). apply IH in H; [|exact NE]. destruct H as (l & -> & SA). apply ne_app in NE.
      apply pbind_good in H2. destruct H2 as (x0 & r5 & H & [= <- <-]). apply IL in H; [|exact NE]. destruct H as (l2 & -> & LB).
      destruct (true_labels _ _ _ _ _ LB) as [E1 E2]. rewrite E1, E2 in LB. cbn [fst snd]. rewrite E1.
      exists (k :: col :: l ++ l2). split; [cbn; now rewrite <- app_assoc|]. now apply (lb_default ns is_string false p k col g).
Qed.
Lemma statements_sound f : Sst f /\ Sbk f /\ Slb f.
Proof.
  induction f as [|f (IS & IB & IL)]; [repeat split; red; intros; discriminate|]. split; [now apply s_statement|]. split; [now apply s_block|now apply s_labels].
Qed.
End Sound.
