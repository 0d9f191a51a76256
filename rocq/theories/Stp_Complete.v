(* Every statement of the grammar is read, and reading ends.  C48. *)
From Verif Require Import Base Par_Model Par_Spec Par_Proofs Par_Complete Par_Whole Stp_Model Stp_Spec Stp_Proofs.
From Coq Require Import Lia.

Section Complete.
Variable ns : bool.
Variable is_string : Z -> bool.
Notation listed := (listed ns true). Notation parenthesised := (parenthesised ns true). Notation states := (states ns is_string true).
Notation block := (block ns is_string true). Notation labels := (labels ns is_string true). Notation declaration := (declaration ns is_string true).

Ltac flat := repeat (progress (cbn [app]) || rewrite <- app_assoc).

Lemma commas_ev t l es : sequence ns t l es -> forall rest, ends ns t 12 rest -> at_ PComma rest = None -> ev (fun f => commas ns f t (l ++ rest)) (PGood es rest).
Proof.
  intros Q. induction Q as [t l e R|t l e c l2 es R KC Q IH]; intros rest E C.
  - apply (ev_S _ (fun f => pbind (hier14 ns f t (l ++ rest)) (fun e r => match at_ PComma r with Some r1 => pbind (commas ns f t r1) (fun l r2 => PGood (e :: l) r2) | None => PGood [e] r end))); [reflexivity|].
    apply (ev_bind _ _ e rest); [now apply parse_complete|]. rewrite C. apply ev_const.
  - apply (ev_S _ (fun f => pbind (hier14 ns f t ((l ++ c :: l2) ++ rest)) (fun e r => match at_ PComma r with Some r1 => pbind (commas ns f t r1) (fun l r2 => PGood (e :: l) r2) | None => PGood [e] r end))); [reflexivity|].
    flat. apply (ev_bind _ _ e (c :: l2 ++ rest)).
    + apply parse_complete; [exact R|]. apply ends_none. now apply (go_p ns PComma).
    + cbn [at_]. rewrite KC. cbn [punct_beq]. apply (ev_bind _ _ es rest); [now apply IH|]. apply ev_const.
Qed.
Lemma commas_enough t l es rest f : sequence ns t l es -> ends ns t 12 rest -> at_ PComma rest = None -> (20 * length (l ++ rest) + 16 < f)%nat ->
  commas ns f t (l ++ rest) = PGood es rest.
Proof.
  intros Q E C L. destruct (commas_ev _ _ _ Q rest E C) as (n & H). specialize (H (max n f) ltac:(lia)).
  destruct (all_grow ns f (max n f) ltac:(lia)) as (_ & _ & _ & _ & _ & _ & _ & _ & _ & G & _). specialize (G t (l ++ rest)).
  destruct (enough ns f) as (_ & _ & _ & _ & _ & _ & _ & _ & _ & N & _). specialize (N t (l ++ rest) L). destruct G as [G|G]; [contradiction|]. congruence.
Qed.
Lemma listed_exprs l e rest : listed true l e rest -> exprs ns (l ++ rest) = PGood e rest.
Proof.
  intros ((es & Q & E) & FE & FC). unfold exprs. rewrite (commas_enough true l es rest); [|exact Q|now apply FE|now apply at_first|lia].
  cbn [pbind]. f_equal. destruct E as [-> |(L & ->)]; [reflexivity|]. destruct es as [|a [|b es]]; cbn in L; try lia. reflexivity.
Qed.
Lemma paren_read l e rest : parenthesised l e -> parens ns (l ++ rest) = PGood e rest.
Proof.
  intros (o & l' & c & -> & KO & KC & (E & F)). unfold parens, need. flat. cbn [at_]. rewrite KO. cbn [punct_beq]. rewrite (listed_exprs l' e (c :: rest)); [|exact (conj E F)].
  cbn [pbind at_]. rewrite KC. reflexivity.
Qed.
Lemma stop_read c rest : stops ns c rest -> term ns (c ++ rest) = Some rest.
Proof.
  intros [(t & K & ->)|(-> & N & F)].
  - cbn. now rewrite K.
  - cbn [app]. unfold term. destruct rest as [|t rest]; [rewrite N; reflexivity|]. destruct F as [B K]. rewrite N, B. destruct (kind t) as [| | | | | | | |p| |]; try reflexivity. destruct p; try reflexivity. contradiction.
Qed.
Lemma needterm_read {A} c rest (a : A) : stops ns c rest -> needterm ns (c ++ rest) a = PGood a rest.
Proof. intros H. unfold needterm. now rewrite (stop_read c rest H). Qed.

Lemma vars_read l vs rest : variables ns is_string true l vs rest -> forall f, (length l <= f)%nat -> vars ns is_string (S f) (l ++ rest) = PGood vs rest.
Proof.
  assert (IN : forall n s li o rest, kind n = Sym s -> initialiser ns is_string true li o rest ->
     symbol true ((n :: li) ++ rest) = Some (s, li ++ rest) /\
     match at_ (PAsg ASet) (li ++ rest) with Some r1 => pbind (var_init ns is_string r1) (fun e r2 => PGood (Some e) r2) | None => PGood None (li ++ rest) end = PGood o rest).
  { intros n s li o rest' KN H. destruct H as [rest0 F|eq tok v rest0 KE KT IS|eq li e rest0 KE R E F].
    - split; [apply symbol_here; [exact KN|]; intros _; apply glued_first; revert F; cbn [app]; destruct rest0; cbn; tauto|].
      cbn [app]. replace (at_ (PAsg ASet) rest0) with (@None (list token)); [reflexivity|]. symmetry. apply at_first. revert F. destruct rest0; cbn; tauto.
    - split; [apply symbol_here; [exact KN|]; intros _; cbn; now rewrite KE|]. cbn [app at_]. rewrite KE. cbn [punct_beq aop_beq]. unfold var_init. rewrite KT, IS. reflexivity.
    - split; [apply symbol_here; [exact KN|]; intros _; cbn; now rewrite KE|]. cbn [app at_]. rewrite KE. cbn [punct_beq aop_beq].
      destruct (reads_head ns _ _ _ _ R) as (tok & l' & -> & _). pose proof (expression_complete ns true _ _ rest0 R (E eq_refl)) as EX. unfold var_init. cbn [app] in *. cbn [first] in F. destruct F as (F1 & F2).
      assert (V : match kind tok with P PLBrace => PBad | Lit v => if is_string v then PGood (ELit v) (l' ++ rest0) else expression ns true (tok :: l' ++ rest0) | _ => expression ns true (tok :: l' ++ rest0) end
        = expression ns true (tok :: l' ++ rest0)).
      { destruct (kind tok) as [|v| | | | | | |p| |]; try reflexivity; [now rewrite (F2 v eq_refl)|]. destruct p; try reflexivity. contradiction. }
      rewrite V, EX. reflexivity. }
  intros H. induction H as [n s li o rest KN I C|n s li o c l vs rest KN I KC V IH]; intros f L; cbn [vars].
  - destruct (IN n s li o rest KN I) as (S1 & S2). rewrite S1, S2. cbn [pbind]. apply at_first in C. now rewrite C.
  - cbn [length] in L. rewrite app_length in L. cbn [length] in L. destruct f as [|f]; [lia|]. destruct (IN n s li o (c :: l ++ rest) KN I) as (S1 & S2). flat. cbn [app] in S1. rewrite S1, S2. cbn [pbind at_].
    rewrite KC. cbn [punct_beq]. rewrite IH by lia. reflexivity.
Qed.
Lemma glued_vars l vs rest : variables ns is_string true l vs rest -> glued (l ++ rest) = None.
Proof. intros H. destruct H as [n s li o rest KN|n s li o c l vs rest KN]; cbn; now rewrite KN. Qed.
Lemma decl_read l s rest : declaration l s rest -> local_decl ns is_string (l ++ rest) = PGood s rest.
Proof.
  intros H. destruct H as [t ty l vs rest K V]. unfold local_decl. flat. rewrite (typename_here true ty t _ K); [|intros _; now apply (glued_vars l vs)].
  rewrite (vars_read l vs rest V); [reflexivity|]. rewrite app_length. lia.
Qed.
Lemma for_init_read l i rest : for_init ns is_string true l i rest -> for_init_of ns is_string (l ++ rest) = PGood i rest.
Proof.
  intros H. unfold for_init_of. destruct H as [t rest K|l s t rest D DC K|l e t rest ND NN L K]; flat.
  - cbn. now rewrite K.
  - assert (HD : at_ PSemi (l ++ t :: rest) = None). { destruct DC as [t0 ty l vs rest0 KT V]. cbn. destruct KT as [-> | ->]; reflexivity. }
    rewrite HD. replace (is_decl (l ++ t :: rest)) with true by (symmetry; now apply is_decl_looks). rewrite (decl_read _ _ _ DC). cbn [pbind]. unfold need. cbn. now rewrite K.
  - destruct (listed_head _ _ _ _ _ _ L) as (tok & l' & -> & SB). replace (is_decl ((tok :: l') ++ t :: rest)) with false by (symmetry; now apply is_decl_not).
    pose proof (listed_exprs _ _ _ L) as EX. cbn [app first] in *. cbn [at_].
    assert (PB : pbind (exprs ns (tok :: l' ++ t :: rest)) (fun e r1 => need PSemi r1 (fun r2 => PGood (Some (SExpr e)) r2)) = PGood (Some (SExpr e)) rest).
    { rewrite EX. cbn [pbind]. unfold need. cbn. now rewrite K. }
    rewrite PB. destruct (kind tok) as [| | | | | | | |p| |]; try reflexivity; try discriminate; try contradiction. destruct p; try reflexivity; discriminate.
Qed.
Lemma optional_read (ok : token -> Prop) (f : list token -> option (list token)) l c rest : (forall t r, ok t -> f (t :: r) = Some r) -> (forall t r, startb (kind t) = true -> f (t :: r) = None) ->
  optional ns true ok l c rest ->
  match f (l ++ rest) with Some r2 => PGood None r2 | None => pbind (exprs ns (l ++ rest)) (fun e r2 => match f r2 with Some r3 => PGood (Some e) r3 | None => PBad end) end = PGood c rest.
Proof.
  intros F1 F2 H. destruct H as [t rest K|l e t rest L K].
  - cbn [app]. now rewrite (F1 t rest K).
  - flat. rewrite (listed_exprs _ _ _ L). destruct (listed_head _ _ _ _ _ _ L) as (tok & l' & -> & SB). cbn [app]. rewrite F2 by exact SB. cbn [pbind]. now rewrite F1.
Qed.
Lemma opening_read par o next : opening par o next -> match at_ PLPar (o ++ next) with Some r0 => (true, r0) | None => (false, o ++ next) end = (par, next).
Proof.
  destruct par; cbn [opening].
  - intros (t & -> & K). cbn. now rewrite K.
  - intros (-> & F). apply at_first in F. cbn [app]. now rewrite F.
Qed.
Lemma closer_read par t r : closer par t -> (if par then at_ PRPar (t :: r) else at_kw KDo (t :: r)) = Some r.
Proof. destruct par; cbn [closer]; intros K; [cbn; now rewrite K|]. apply at_kw_some; [auto|]. eauto. Qed.
Lemma closer_start (par : bool) t r : startb (kind t) = true -> (if par then at_ PRPar (t :: r) else at_kw KDo (t :: r)) = None.
Proof.
  destruct par; cbn; unfold is_kw; destruct (kind t) as [| | | | | | | |p| |]; try reflexivity; try discriminate; intros S; destruct p; try reflexivity; discriminate.
Qed.
Lemma not_decl t r : (forall s, kind t <> Sym s) -> (forall s, kind t <> Ty s) -> is_decl (t :: r) = false.
Proof. intros A B. cbn. destruct (kind t) as [s| | | |s| | | | | |]; try reflexivity; [now destruct (A s)|now destruct (B s)]. Qed.

Lemma states_some l s d p rest : states d p l s rest -> (1 <= length l)%nat.
Proof.
  intros H. destruct H; cbn [length]; try lia.
  - destruct (listed_head _ _ _ _ _ _ H) as (tok & l' & -> & _). cbn. lia.
  - destruct H0. cbn. lia.
Qed.
Lemma labels_some p f l cs df rest : labels p f l cs df rest -> (1 <= length l)%nat.
Proof. intros H. destruct H; cbn [length]; lia. Qed.

Definition Cst d p l s rest (_ : states d p l s rest) := forall f, (3 * length l < f)%nat -> statement ns is_string f d p (l ++ rest) = PGood s rest.
Definition Cbk p l ss rest (_ : block p l ss rest) := forall c r f, rest = c :: r -> kind c = P PRBrace -> (3 * length l + 1 < f)%nat -> compound ns is_string f p (l ++ rest) = PGood ss r.
Definition Clb p df0 l cs df rest (_ : labels p df0 l cs df rest) := forall f, (3 * length l < f)%nat -> cases ns is_string f p df0 (l ++ rest) = PGood (cs, df) rest.

Ltac len := repeat (progress (cbn [length] in * ) || rewrite app_length in * ).
Ltac kw K := unfold kw_tok in K; cbn [statement]; fold (statement ns is_string) (compound ns is_string) (cases ns is_string);
  rewrite not_decl by (intros ?; rewrite K; discriminate); rewrite K; cbv beta iota zeta.

Lemma c_expr d p l e c rest f : listed true l e (c ++ rest) -> plain l (c ++ rest) -> stops ns c rest -> statement ns is_string (S f) d p (l ++ c ++ rest) = PGood (SExpr e) rest.
Proof.
  intros L (ND & NB & NN) ST. cbn [statement]. fold (statement ns is_string) (compound ns is_string) (cases ns is_string).
  replace (is_decl (l ++ c ++ rest)) with false by (symmetry; now apply is_decl_not). pose proof (listed_exprs _ _ _ L) as EX. destruct (listed_head _ _ _ _ _ _ L) as (tok & l' & -> & SB).
  rewrite EX. cbn [pbind]. rewrite (needterm_read c rest (SExpr e) ST). cbn [app first] in *.
  destruct (kind tok) as [| | | | | | | |p0| |] eqn:K; try reflexivity; try discriminate.
  - destruct NN as [NN|(k & t & s & o & r & E & KT & KO)]; [contradiction|]. injection E as <- ->. cbn [app]. rewrite (symbol_here true s t _ KT); [|intros _; now apply (glued_p PLPar)].
    cbn. rewrite KO. reflexivity.
  - destruct p0; try reflexivity; try discriminate. contradiction.
Qed.
Lemma all_complete : (forall d p l s rest H, Cst d p l s rest H) /\ (forall p l ss rest H, Cbk p l ss rest H) /\ (forall p f l cs df rest H, Clb p f l cs df rest H).
Proof.
  apply (states_mut ns is_string true Cst Cbk Clb); unfold Cst, Cbk, Clb.
  - intros d p l e c rest L PL ST f F. flat. destruct f; [lia|]. now apply c_expr.
  - intros p l s c rest D DC ST f F. flat. destruct f; [lia|]. cbn [statement]. replace (is_decl (l ++ c ++ rest)) with true by (symmetry; now apply is_decl_looks).
    rewrite (decl_read _ _ _ DC). cbn [pbind]. now apply needterm_read.
  - intros d p o l ss c rest KO B IH KC f F. flat. destruct f; [lia|]. len. cbn [statement]. fold (statement ns is_string) (compound ns is_string) (cases ns is_string).
    rewrite not_decl by (intros ?; rewrite KO; discriminate). rewrite KO. cbv beta iota zeta. rewrite (IH c rest f eq_refl KC) by lia. reflexivity.
  - intros d p k lc c l1 a rest K PC S1 IH NE f F. flat. destruct f; [lia|]. len. kw K. rewrite (paren_read _ _ _ PC). cbn [pbind]. rewrite IH by lia. cbn [pbind].
    apply at_kw_first in NE; [|auto]. now rewrite NE.
  - intros d p k lc c l1 a k2 l2 b rest K PC S1 IH1 K2 S2 IH2 f F. flat. destruct f; [lia|]. len. kw K. rewrite (paren_read _ _ _ PC). cbn [pbind]. rewrite IH1 by lia. cbn [pbind].
    assert (E : at_kw KElse (k2 :: l2 ++ rest) = Some (l2 ++ rest)) by (apply at_kw_some; eauto). rewrite E, IH2 by lia. reflexivity.
  - intros d p k lc c l s rest K PC S1 IH f F. flat. destruct f; [lia|]. len. kw K. rewrite (paren_read _ _ _ PC). cbn [pbind]. rewrite IH by lia. reflexivity.
  - intros d p k l s k2 lc c lt rest K S1 IH K2 PC ST f F. flat. destruct f; [lia|]. len. kw K. rewrite IH by lia. cbn [pbind].
    assert (E : at_kw KWhile (k2 :: lc ++ lt ++ rest) = Some (lc ++ lt ++ rest)) by (apply at_kw_some; eauto 6). rewrite E.
    destruct PC as (o & l' & cl & -> & KO & KC & (EL & FL)). flat. cbn [at_]. rewrite KO. cbn [punct_beq]. rewrite (listed_exprs l' c (cl :: lt ++ rest)) by exact (conj EL FL).
    cbn [pbind]. unfold need. cbn [at_]. rewrite KC. cbn [punct_beq]. now apply needterm_read.
  - intros d p k l s k2 lc c lt rest K S1 IH K2 L NP ST f F. flat. destruct f; [lia|]. len. kw K. rewrite IH by lia. cbn [pbind].
    assert (E : at_kw KWhile (k2 :: lc ++ lt ++ rest) = Some (lc ++ lt ++ rest)) by (apply at_kw_some; eauto 6). rewrite E.
    assert (E2 : at_ PLPar (lc ++ lt ++ rest) = None). { apply at_first. destruct (listed_head _ _ _ _ _ _ L) as (tok & l' & -> & _). exact NP. }
    rewrite E2, (listed_exprs _ _ _ L). cbn [pbind]. now apply needterm_read.
  - intros d p k par o li init lc c la adv l s rest K OP FI OC OA S1 IH f F. flat. destruct f; [lia|]. len. kw K. rewrite (opening_read par o _ OP).
    fold (for_init_of ns is_string (li ++ lc ++ la ++ l ++ rest)). rewrite (for_init_read _ _ _ FI). cbn [pbind].
    unfold need. rewrite (optional_read (fun t => kind t = P PSemi) (at_ PSemi) lc c _ ltac:(intros t r KT; cbn; now rewrite KT)); [|intros t r SB; cbn; destruct (kind t) as [| | | | | | | |p0| |]; try reflexivity; destruct p0; try reflexivity; discriminate|exact OC].
    cbn [pbind]. rewrite (optional_read (closer par) (fun ts => if par then at_ PRPar ts else at_kw KDo ts) la adv _ (closer_read par) (closer_start par) OA). cbn [pbind]. rewrite IH by lia. reflexivity.
  - intros d p k par o l e c b lc cs df rest K OP L KC KB LB IH f F. flat. destruct f; [lia|]. len. kw K. rewrite (opening_read par o _ OP), (listed_exprs _ _ _ L). cbn [pbind].
    rewrite (closer_read par c _ KC). unfold need. cbn [at_]. rewrite KB. cbn [punct_beq]. rewrite IH by lia. reflexivity.
  - intros d k c rest K ST f F. flat. destruct f; [lia|]. kw K. now apply needterm_read.
  - intros d k c rest K ST f F. flat. destruct f; [lia|]. kw K. now apply needterm_read.
  - intros d p k c rest K ST f F. flat. destruct f; [lia|]. kw K. now rewrite (stop_read _ _ ST).
  - intros d p k l e c rest K L B ST f F. flat. destruct f; [lia|]. kw K.
    assert (T : term ns (l ++ c ++ rest) = None).
    { destruct (listed_head _ _ _ _ _ _ L) as (tok & l' & -> & SB). cbn in B |- *. assert (NB : negb ns && bol tok = false) by (destruct B as [B|B]; rewrite B; [reflexivity|apply andb_false_r]).
      rewrite NB. destruct (kind tok) as [| | | | | | | |p0| |]; try reflexivity. destruct p0; try reflexivity. discriminate. }
    rewrite T, (listed_exprs _ _ _ L). cbn [pbind]. now apply needterm_read.
  - intros d p k lc e c rest K PC ST f F. flat. destruct f; [lia|]. kw K. rewrite (paren_read _ _ _ PC). cbn [pbind]. now apply needterm_read.
  - intros d p k l e c rest K L ST f F. flat. destruct f; [lia|]. kw K. rewrite (listed_exprs _ _ _ L). cbn [pbind]. now apply needterm_read.
  - intros p rest _ c r f -> K F. destruct f; [lia|]. cbn. now rewrite K.
  - intros p l s l2 ss rest S1 IH1 B IH2 c r f -> K F. flat. destruct f; [lia|]. len. pose proof (states_some _ _ _ _ _ S1). cbn [compound]. fold (statement ns is_string) (compound ns is_string).
    assert (E : at_ PRBrace (l ++ l2 ++ c :: r) = None).
    { specialize (IH1 (S (3 * length l))%nat ltac:(lia)). destruct (at_ PRBrace (l ++ l2 ++ c :: r)) as [r'|] eqn:E; [|reflexivity]. apply at_some in E. destruct E as (t & KT & E). rewrite E in IH1.
      cbn [statement] in IH1. rewrite not_decl in IH1 by (intros ?; rewrite KT; discriminate). rewrite KT in IH1. cbv beta iota zeta in IH1. apply pbind_good in IH1. destruct IH1 as (e & r1 & IH1 & _). apply exprs_sound in IH1. destruct IH1 as (l' & E1 & L).
      destruct (listed_head _ _ _ _ _ _ L) as (tok & r2 & -> & SB). injection E1 as -> _. rewrite KT in SB. discriminate. }
    rewrite E, IH1 by lia. cbn [pbind]. rewrite (IH2 c r f eq_refl K) by lia. reflexivity.
  - intros p df0 c rest K f F. destruct f; [lia|]. cbn. now rewrite K.
  - intros p k le es col g l s l2 cs df rest K Q KC S1 IH1 LB IH2 f F. flat. destruct f; [lia|]. len. pose proof (states_some _ _ _ _ _ S1). unfold kw_tok in K. cbn [cases]. fold (statement ns is_string) (cases ns is_string).
    cbn [at_]. rewrite K. assert (E : at_kw KCase (k :: le ++ col :: l ++ l2 ++ rest) = Some (le ++ col :: l ++ l2 ++ rest)) by (apply at_kw_some; eauto 8). rewrite E.
    rewrite (commas_enough false le es (col :: l ++ l2 ++ rest)); [|exact Q|cbn; unfold goes_on; rewrite KC; destruct g; exact Logic.I|cbn; now rewrite KC|lia].
    cbn [pbind at_colon]. rewrite KC, IH1 by lia. cbn [pbind]. rewrite IH2 by lia. reflexivity.
  - intros p k col g l s l2 rest K KC S1 IH1 LB IH2 f F. flat. destruct f; [lia|]. len. unfold kw_tok in K. cbn [cases]. fold (statement ns is_string) (cases ns is_string).
    cbn [at_]. rewrite K. assert (E0 : at_kw KCase (k :: col :: l ++ l2 ++ rest) = None) by (apply at_kw_first; [auto 8|]; cbn; unfold kw_tok; rewrite K; discriminate).
    assert (E : at_kw KDefault (k :: col :: l ++ l2 ++ rest) = Some (col :: l ++ l2 ++ rest)) by (apply at_kw_some; eauto 8). rewrite E0, E.
    cbn [at_colon]. rewrite KC, IH1 by lia. cbn [pbind]. rewrite IH2 by lia. reflexivity.
Qed.
Lemma statement_complete d p l s rest : states d p l s rest -> read_statement ns is_string d p (l ++ rest) = PGood s rest.
Proof. intros H. apply (proj1 all_complete _ _ _ _ _ H). rewrite app_length. lia. Qed.
End Complete.
