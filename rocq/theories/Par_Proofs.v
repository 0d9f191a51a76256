(* The parser reads exactly the grammar: C47. *)
From Verif Require Import Base Par_Model Par_Spec.
From Coq Require Import Lia.

Scheme reads_ind2 := Induction for reads Sort Prop
  with operand_ind2 := Induction for operand Sort Prop
  with chain_ind2 := Induction for chain Sort Prop
  with sequence_ind2 := Induction for sequence Sort Prop
  with elements_ind2 := Induction for elements Sort Prop
  with dimensions_ind2 := Induction for dimensions Sort Prop
  with arguments_ind2 := Induction for arguments Sort Prop
  with argument_list_ind2 := Induction for argument_list Sort Prop
  with argument_ind2 := Induction for argument Sort Prop.
Combined Scheme reads_mut from reads_ind2, operand_ind2, chain_ind2, sequence_ind2, elements_ind2, dimensions_ind2, arguments_ind2, argument_list_ind2, argument_ind2.

Lemma punct_beq_refl p : punct_beq p p = true. Proof. now apply internal_punct_dec_lb. Qed.
Lemma punct_beq_eq p q : punct_beq p q = true -> p = q. Proof. apply internal_punct_dec_bl. Qed.
Lemma at_some p ts r : at_ p ts = Some r <-> exists t, kind t = P p /\ ts = t :: r.
Proof.
  split.
  - destruct ts as [|t ts]; [discriminate|]. cbn. destruct (kind t) as [| | | | | | | |q| |] eqn:K; try discriminate. destruct (punct_beq p q) eqn:E; [|discriminate].
    intros [= ->]. apply punct_beq_eq in E. subst. eauto.
  - intros (t & K & ->). cbn. rewrite K, punct_beq_refl. reflexivity.
Qed.
Lemma at_here p t r : kind t = P p -> at_ p (t :: r) = Some r. Proof. intros K. apply at_some. eauto. Qed.
Lemma at_not p q t r : kind t = P q -> p <> q -> at_ p (t :: r) = None.
Proof. intros K D. cbn. rewrite K. destruct (punct_beq p q) eqn:E; [apply punct_beq_eq in E; congruence|reflexivity]. Qed.
Lemma at_other p t r : (forall q, kind t <> P q) -> at_ p (t :: r) = None.
Proof. intros K. cbn. destruct (kind t) as [| | | | | | | |q| |]; try reflexivity. now destruct (K q). Qed.

Lemma list_prec k p : existsb (punct_beq p) (list_of k) = true <-> prec p = Some k.
Proof.
  split.
  - do 11 (destruct k as [|k]; [destruct p; cbn; try discriminate; reflexivity|]). discriminate.
  - intros H. destruct p; try discriminate H; injection H as <-; reflexivity.
Qed.
Lemma nextop_some k ts op r : nextop (list_of k) ts = Some (op, r) <-> exists t, kind t = P op /\ prec op = Some k /\ ts = t :: r.
Proof.
  unfold nextop. split.
  - destruct ts as [|t ts]; [discriminate|]. destruct (kind t) as [| | | | | | | |q| |] eqn:K; try discriminate.
    destruct (existsb (punct_beq q) (list_of k)) eqn:E; [|discriminate]. intros [= -> ->]. apply list_prec in E. eauto.
  - intros (t & K & PR & ->). rewrite K. apply list_prec in PR. rewrite PR. reflexivity.
Qed.
Lemma nextop_none k t rest ns : ends ns t k rest -> nextop (list_of k) rest = None.
Proof.
  destruct rest as [|tok rest]; [reflexivity|]. cbn [ends nextop]. unfold goes_on. destruct (kind tok) as [| | | | | | | |q| |] eqn:K; try reflexivity.
  destruct (existsb (punct_beq q) (list_of k)) eqn:E; [|reflexivity]. apply list_prec in E. intros H. exfalso.
  destruct q; try discriminate E; cbn [prec] in E, H; injection E as <-; lia.
Qed.

(* ---- Whatever is read is in the grammar ---- *)
Section Sound.
Variable ns : bool.
Notation reads := (reads ns). Notation operand := (operand ns). Notation chain := (chain ns). Notation sequence := (sequence ns).
Notation elements := (elements ns). Notation dimensions := (dimensions ns). Notation arguments := (arguments ns). Notation argument_list := (argument_list ns).

Lemma up t l e k : reads t k l e -> forall j, (k <= j <= 12)%nat -> reads t j l e.
Proof. intros R j [H1 H2]. induction H1 as [|j H1 IH]; [exact R|]. apply r_up; [apply IH; lia|lia]. Qed.

Lemma mkbin_eq op a b : mkbin op a b = match op with PAnd | POr => ELogic op a b | _ => EBin op a b end.
Proof. destruct op; reflexivity. Qed.

Lemma pbind_good {A B} (m : pres A) (k : A -> list token -> pres B) b r : pbind m k = PGood b r -> exists a r1, m = PGood a r1 /\ k a r1 = PGood b r.
Proof. destruct m as [a r1| |]; try discriminate. intros H. exists a, r1. auto. Qed.
Lemma need_good {A} p ts (k : list token -> pres A) a r : need p ts k = PGood a r -> exists t r1, kind t = P p /\ ts = t :: r1 /\ k r1 = PGood a r.
Proof. unfold need. destruct (at_ p ts) as [r1|] eqn:E; [|discriminate]. apply at_some in E. destruct E as (t & K & ->). intros H. exists t, r1. auto. Qed.
Lemma symbol_some t ts s r : symbol t ts = Some (s, r) -> exists tok, kind tok = Sym s /\ ts = tok :: r.
Proof.
  destruct ts as [|tok ts]; [discriminate|]. cbn. destruct (kind tok) as [z| | | | | | | | | |] eqn:K; try discriminate.
  destruct (glued ts); [destruct t; [discriminate|]|]; intros [= -> ->]; eauto.
Qed.
Lemma typename_some t ts s r : typename t ts = Some (s, r) -> exists tok, (kind tok = Sym s \/ kind tok = Ty s) /\ ts = tok :: r.
Proof.
  destruct ts as [|tok ts]; [discriminate|]. unfold typename. destruct (kind tok) as [| | | |z| | | | | |] eqn:K; try discriminate;
    try (intros H; apply symbol_some in H; destruct H as (tok' & K' & [= -> ->]); eauto; fail). intros [= -> ->]. eauto.
Qed.
Lemma glued_some ts r : glued ts = Some r -> exists tok, kind tok = Colon true /\ ts = tok :: r.
Proof. destruct ts as [|tok ts]; [discriminate|]. cbn. destruct (kind tok) as [| | | | | | | | |[]|] eqn:K; try discriminate. intros [= ->]. eauto. Qed.
Lemma strip_eq ts n r : strip ts = (n, r) -> exists o, Forall open_par o /\ length o = n /\ ts = o ++ r /\ forall x r', r = x :: r' -> ~ open_par x.
Proof.
  revert n r. induction ts as [|t ts IH]; intros n r; cbn [strip].
  - intros [= <- <-]. exists []. repeat split; auto. intros x r' H. discriminate.
  - assert (D : (forall q, kind t = P q -> q <> PLPar) -> (O, t :: ts) = (n, r) -> exists o, Forall open_par o /\ length o = n /\ t :: ts = o ++ r /\ forall x r', r = x :: r' -> ~ open_par x).
    { intros NP [= <- <-]. exists []. repeat split; auto. intros x r' [= -> ->] H. unfold open_par in H. exact (NP _ H eq_refl). }
    destruct (kind t) as [| | | | | | | |p| |] eqn:K; try (apply D; intros q H; discriminate).
    destruct p; try (apply D; intros q [= <-]; discriminate). destruct (strip ts) as [n' r'] eqn:E. intros [= <- <-].
    destruct (IH n' r' eq_refl) as (o & F & L & -> & H). exists (t :: o). split; [constructor; auto|]. split; [cbn; lia|]. split; [reflexivity|exact H].
Qed.
Lemma closing_good {A} n : forall ts (k : list token -> pres A) a r, closing n ts k = PGood a r -> exists c r1, Forall close_par c /\ length c = n /\ ts = c ++ r1 /\ k r1 = PGood a r.
Proof.
  induction n as [|n IH]; intros ts k a r H; [exists [], ts; auto|]. cbn [closing] in H. apply need_good in H. destruct H as (t & r1 & K & -> & H).
  apply IH in H. destruct H as (c & r2 & F & L & -> & H). exists (t :: c), r2. repeat split; auto. cbn. lia.
Qed.
Lemma postfix_good node ts e r t l : postfix ns node ts = PGood e r -> operand t false l node -> exists l1, ts = l1 ++ r /\ reads t 0 (l ++ l1) e.
Proof.
  intros H O.
  assert (D : PGood node ts = PGood e r -> exists l1, ts = l1 ++ r /\ reads t 0 (l ++ l1) e).
  { intros [= <- <-]. exists []. split; [reflexivity|]. rewrite app_nil_r. now apply r_operand. }
  destruct ts as [|tok ts]; [exact (D H)|]. cbn [postfix] in H. destruct (negb ns && bol tok) eqn:B; [exact (D H)|].
  assert (NB : ns = true \/ bol tok = false) by (destruct ns, (bol tok); auto).
  destruct (kind tok) as [| | | | | | | |p| |] eqn:K; try exact (D H). destruct p; try exact (D H).
  - injection H as <- <-. exists [tok]. split; [reflexivity|]. now apply (r_postinc ns t PInc).
  - injection H as <- <-. exists [tok]. split; [reflexivity|]. now apply (r_postinc ns t PDec).
Qed.

Definition S14 f := forall t ts e r, hier14 ns f t ts = PGood e r -> exists l, ts = l ++ r /\ reads t 12 l e.
Definition S13 f := forall t ts e r, hier13 ns f t ts = PGood e r -> exists l, ts = l ++ r /\ reads t 11 l e.
Definition Sh f := forall k t ts e r, (k <= 10)%nat -> hier ns f k t ts = PGood e r -> exists l, ts = l ++ r /\ reads t k l e.
Definition Sbl f := forall k t node ts e r, (1 <= k <= 10)%nat -> k <> 7%nat -> bin_loop ns f k t node ts = PGood e r ->
  exists l, ts = l ++ r /\ forall l0, reads t k l0 node -> reads t k (l0 ++ l) e.
Definition Srl f := forall t ts c r, rel_loop ns f t ts = PGood c r -> exists l, ts = l ++ r /\ chain t l c.
Definition S2 f := forall t ts e r, hier2 ns f t ts = PGood e r -> exists l, ts = l ++ r /\ reads t 0 l e.
Definition S1 f := forall t x ts e r, hier1 ns f t x ts = PGood e r -> exists l, ts = l ++ r /\ operand t x l e.
Definition Sac f := forall t x b ts e r, accesses ns f t x b ts = PGood e r ->
  exists l, ts = l ++ r /\ forall l0, operand t x l0 b -> operand t x (l0 ++ l) e.
Definition Spr f := forall t x ts e r, primary ns f t ts = PGood e r -> exists l, ts = l ++ r /\ operand t x l e.
Definition Sco f := forall t ts e r, commas ns f t ts = PGood e r -> exists l, ts = l ++ r /\ sequence t l e.
Definition Sbr f := forall t ts e r, braces ns f t ts = PGood e r -> exists l, ts = l ++ r /\ elements t l (fst e) (snd e).
Definition Sdi f := forall t ts e r, dims ns f t ts = PGood e r -> exists l, ts = l ++ r /\ dimensions t l e.
Definition Spc f := forall t ts e r, parse_call ns f t ts = PGood e r -> exists l, ts = l ++ r /\ arguments t l e.
Definition Sar f := forall t n ts e r, args ns f t n ts = PGood e r -> exists l, ts = l ++ r /\ argument_list t n l e.
Definition SA f := S14 f /\ S13 f /\ Sh f /\ Sbl f /\ Srl f /\ S2 f /\ S1 f /\ Sac f /\ Spr f /\ Sco f /\ Sbr f /\ Sdi f /\ Spc f /\ Sar f.

Lemma s14 f : S14 f -> S13 f -> S14 (S f).
Proof.
  intros I14 I13 t ts e r H. cbn [hier14] in H. apply pbind_good in H. destruct H as (a & r1 & H1 & H). apply I13 in H1. destruct H1 as (l & -> & R1).
  assert (D : PGood a r1 = PGood e r -> exists l0, l ++ r1 = l0 ++ r /\ reads t 12 l0 e).
  { intros [= <- <-]. exists l. split; [reflexivity|]. apply r_up; [exact R1|lia]. }
  destruct r1 as [|tok r1]; [exact (D H)|]. destruct (kind tok) as [| | | | | | | |p| |] eqn:K; try exact (D H). destruct p; try exact (D H).
  apply pbind_good in H. destruct H as (b & r2 & H1 & [= <- <-]). apply I14 in H1. destruct H1 as (l2 & -> & R2).
  exists (l ++ tok :: l2). split; [now rewrite <- app_assoc|]. now apply r_assign.
Qed.
Lemma s13 f : S13 f -> Sh f -> S13 (S f).
Proof.
  intros I13 Ih t ts e r H. cbn [hier13] in H. apply pbind_good in H. destruct H as (c & r1 & H1 & H). apply Ih in H1; [|lia]. destruct H1 as (l & -> & R1).
  destruct (at_ PQuestion r1) as [r2|] eqn:Q.
  - apply at_some in Q. destruct Q as (q & K & ->). apply pbind_good in H. destruct H as (a & r3 & H1 & H). apply I13 in H1. destruct H1 as (l2 & -> & R2).
    destruct r3 as [|col r3]; [discriminate|]. destruct (kind col) as [| | | | | | | | |g|] eqn:KC; try discriminate.
    apply pbind_good in H. destruct H as (b & r4 & H1 & [= <- <-]). apply I13 in H1. destruct H1 as (l3 & -> & R3).
    exists (l ++ q :: l2 ++ col :: l3). split; [now rewrite <- !app_assoc; cbn; rewrite <- !app_assoc|]. now apply (r_ternary ns t q col g).
  - injection H as <- <-. exists l. split; [reflexivity|]. apply r_up; [exact R1|lia].
Qed.
Lemma sh f : Sh f -> Sbl f -> Srl f -> S2 f -> Sh (S f).
Proof.
  intros Ih Ibl Irl I2 k t ts e r B H. cbn [hier] in H. destruct k as [|j]; [now apply I2|].
  apply pbind_good in H. destruct H as (a & r1 & H1 & H). apply Ih in H1; [|lia]. destruct H1 as (l & -> & R1).
  destruct (Nat.eqb (S j) 7) eqn:E.
  - apply Nat.eqb_eq in E. assert (j = 6)%nat by lia. subst j. apply pbind_good in H. destruct H as (c & r2 & H1 & [= <- <-]).
    apply Irl in H1. destruct H1 as (l2 & -> & C). exists (l ++ l2). split; [now rewrite app_assoc|].
    destruct c as [|(op & b) [|c2 c]].
    + assert (l2 = []) as -> by (inversion C; reflexivity). rewrite app_nil_r. apply r_up; [exact R1|lia].
    + inversion C as [|? ? ? ? ? ? ? K PR RB CC]; subst. inversion CC; subst. rewrite app_nil_r. cbn [mkrel]. now apply r_compare.
    + cbn [mkrel]. apply r_chain; auto. cbn. lia.
  - apply Nat.eqb_neq in E. apply Ibl in H; [|lia|exact E]. destruct H as (l2 & -> & R2). exists (l ++ l2). split; [now rewrite app_assoc|].
    apply R2. apply r_up; [exact R1|lia].
Qed.
Lemma sbl f : Sh f -> Sbl f -> Sbl (S f).
Proof.
  intros Ih Ibl k t node ts e r B N H. cbn [bin_loop] in H. destruct (nextop (list_of k) ts) as [(op & r1)|] eqn:NO.
  - apply nextop_some in NO. destruct NO as (tok & K & PR & ->). apply pbind_good in H. destruct H as (b & r2 & H1 & H).
    apply Ih in H1; [|lia]. destruct H1 as (l & -> & R1). apply Ibl in H; auto. destruct H as (l2 & -> & R2).
    exists (tok :: l ++ l2). split; [cbn; now rewrite app_assoc|]. intros l0 R0. destruct k as [|k]; [lia|].
    replace (l0 ++ tok :: l ++ l2) with ((l0 ++ tok :: l) ++ l2) by (rewrite <- app_assoc; reflexivity). apply R2. rewrite mkbin_eq. now apply r_binary.
  - injection H as <- <-. exists []. split; [reflexivity|]. intros l0 R0. now rewrite app_nil_r.
Qed.
Lemma srl f : Sh f -> Srl f -> Srl (S f).
Proof.
  intros Ih Irl t ts c r H. cbn [rel_loop] in H. destruct (nextop (list_of 7) ts) as [(op & r1)|] eqn:NO.
  - apply nextop_some in NO. destruct NO as (tok & K & PR & ->). apply pbind_good in H. destruct H as (b & r2 & H1 & H). apply Ih in H1; [|lia]. destruct H1 as (l & -> & R1).
    apply pbind_good in H. destruct H as (c2 & r3 & H1 & [= <- <-]). apply Irl in H1. destruct H1 as (l2 & -> & C).
    exists (tok :: l ++ l2). split; [cbn; now rewrite app_assoc|]. now apply c_cons.
  - injection H as <- <-. exists []. split; [reflexivity|constructor].
Qed.
Lemma s2 f : S2 f -> S1 f -> Sdi f -> Spc f -> S2 (S f).
Proof.
  intros I2 I1 Idi Ipc t ts e r H. cbn [hier2] in H. destruct ts as [|tok ts]; [discriminate|].
  assert (D : pbind (hier1 ns f t false (tok :: ts)) (fun node r => postfix ns node r) = PGood e r -> exists l, tok :: ts = l ++ r /\ reads t 0 l e).
  { intros H1. apply pbind_good in H1. destruct H1 as (b & r1 & H1 & H2). apply I1 in H1. destruct H1 as (l & -> & O).
    destruct (postfix_good _ _ _ _ _ _ H2 O) as (l1 & -> & R). exists (l ++ l1). now rewrite app_assoc. }
  assert (U : forall g, pbind (hier2 ns f t ts) (fun e r => PGood (g e) r) = PGood e r -> exists l e', ts = l ++ r /\ reads t 0 l e' /\ e = g e').
  { intros g H1. apply pbind_good in H1. destruct H1 as (b & r1 & H1 & [= <- <-]). apply I2 in H1. destruct H1 as (l & -> & R). eauto. }
  assert (N : forall s r1, (kind tok = New -> (exists t2, (kind t2 = Sym s \/ kind t2 = Ty s) /\ ts = t2 :: r1) ->
     need PLBrk r1 (fun r2 => pbind (dims ns f t r2) (fun l r3 => PGood (ENewArray s l) r3)) = PGood e r -> exists l, tok :: ts = l ++ r /\ reads t 0 l e)).
  { intros s r1 K (t2 & K2 & ->) H1. apply need_good in H1. destruct H1 as (o & r2 & KO & -> & H1). apply pbind_good in H1. destruct H1 as (l & r3 & H1 & [= <- <-]).
    apply Idi in H1. destruct H1 as (l2 & -> & DI). exists (tok :: t2 :: o :: l2). split; [reflexivity|]. now apply r_newarray. }
  destruct (kind tok) as [s|v| | |s| | | |p|g|z] eqn:K; try exact (D H).
  - destruct (if t then glued ts else None) as [r1|] eqn:G; [|exact (D H)]. destruct t; [|discriminate]. apply glued_some in G. destruct G as (col & KC & ->).
    apply pbind_good in H. destruct H as (b & r2 & H1 & [= <- <-]). apply I2 in H1. destruct H1 as (l & -> & R). exists (tok :: col :: l). split; [reflexivity|]. now apply r_cast.
  - destruct (symbol t ts) as [(s & r1)|] eqn:SY.
    + apply symbol_some in SY. destruct SY as (t2 & K2 & ->). destruct (at_ PLPar r1) as [r2|] eqn:LP.
      * apply at_some in LP. destruct LP as (o & KO & ->). apply pbind_good in H. destruct H as (l & r3 & H1 & [= <- <-]). apply Ipc in H1. destruct H1 as (l2 & -> & A).
        exists (tok :: t2 :: o :: l2). split; [reflexivity|]. now apply r_new.
      * apply (N s r1); auto. eauto.
    + destruct (typename t ts) as [(s & r1)|] eqn:TY; [|discriminate]. apply typename_some in TY. destruct TY as (t2 & K2 & ->). apply (N s r1); auto. eauto.
  - destruct (strip ts) as [n r1] eqn:ST. apply strip_eq in ST. destruct ST as (o & FO & LO & -> & NP). apply pbind_good in H. destruct H as (b & r2 & H1 & H).
    apply I1 in H1. destruct H1 as (l & -> & O). apply closing_good in H. destruct H as (c & r3 & FC & LC & -> & [= <- <-]).
    exists (tok :: o ++ l ++ c). split; [cbn; now rewrite <- !app_assoc|]. apply r_sizeof; auto; [lia|].
    intros x l' ->. apply (NP x (l' ++ c ++ r3)). reflexivity.
  - destruct p; try exact (D H); apply U in H; destruct H as (l & e' & -> & R & ->); exists (tok :: l); (split; [reflexivity|]).
    + now apply r_preinc.
    + now apply r_preinc.
    + now apply r_unary.
    + now apply r_unary.
    + now apply r_unary.
Qed.
Lemma s1 f : S14 f -> Sac f -> Spr f -> S1 (S f).
Proof.
  intros I14 Iac Ipr t x ts e r H. cbn [hier1] in H. destruct ts as [|tok ts]; [discriminate|].
  assert (D : pbind (primary ns f t (tok :: ts)) (fun b r1 => accesses ns f t x b r1) = PGood e r -> exists l, tok :: ts = l ++ r /\ operand t x l e).
  { intros H1. apply pbind_good in H1. destruct H1 as (b & r1 & H1 & H2). apply (Ipr t x) in H1. destruct H1 as (l & -> & O). apply Iac in H2. destruct H2 as (l2 & -> & O2).
    exists (l ++ l2). split; [now rewrite app_assoc|]. now apply O2. }
  destruct (kind tok) as [| | | | | | | | | |] eqn:K; try exact (D H). clear D.
  apply need_good in H. destruct H as (lt & r1 & KL & -> & H). destruct (typename t r1) as [(s & r2)|] eqn:TY; [|discriminate].
  apply typename_some in TY. destruct TY as (tn & KT & ->). apply need_good in H. destruct H as (gt & r3 & KG & -> & H). apply need_good in H. destruct H as (o & r4 & KO & -> & H).
  apply pbind_good in H. destruct H as (b & r5 & H1 & H). apply I14 in H1. destruct H1 as (l & -> & R). apply need_good in H. destruct H as (c & r6 & KC & -> & H).
  apply Iac in H. destruct H as (l2 & -> & O). exists ((tok :: lt :: tn :: gt :: o :: l ++ [c]) ++ l2). split; [cbn; now rewrite <- !app_assoc|].
  apply O. now apply o_view.
Qed.
Lemma sac f : S14 f -> Sac f -> Spc f -> Sac (S f).
Proof.
  intros I14 Iac Ipc t x b ts e r H. cbn [accesses] in H.
  assert (D : PGood b ts = PGood e r -> exists l, ts = l ++ r /\ forall l0, operand t x l0 b -> operand t x (l0 ++ l) e).
  { intros [= <- <-]. exists []. split; [reflexivity|]. intros l0 O. now rewrite app_nil_r. }
  destruct ts as [|tok ts]; [exact (D H)|]. destruct (kind tok) as [| | | | | | | |p| |] eqn:K; try exact (D H).
  assert (M : forall op, kind tok = P op -> is_member op = true -> match symbol t ts with Some (s, r1) => accesses ns f t x (EField op b s) r1 | None => PBad end = PGood e r ->
     exists l, tok :: ts = l ++ r /\ forall l0, operand t x l0 b -> operand t x (l0 ++ l) e).
  { intros op KO MO H1. destruct (symbol t ts) as [(s & r1)|] eqn:SY; [|discriminate]. apply symbol_some in SY. destruct SY as (t2 & K2 & ->). apply Iac in H1. destruct H1 as (l & -> & O).
    exists (tok :: t2 :: l). split; [reflexivity|]. intros l0 O0. replace (l0 ++ tok :: t2 :: l) with ((l0 ++ [tok; t2]) ++ l) by (rewrite <- app_assoc; reflexivity).
    apply O. now apply o_member. }
  destruct p; try exact (D H); clear D.
  - apply pbind_good in H. destruct H as (a & r1 & H1 & H). apply Ipc in H1. destruct H1 as (l & -> & A). apply Iac in H. destruct H as (l2 & -> & O).
    exists (tok :: l ++ l2). split; [cbn; now rewrite app_assoc|]. intros l0 O0. replace (l0 ++ tok :: l ++ l2) with ((l0 ++ tok :: l) ++ l2) by (rewrite <- app_assoc; reflexivity).
    apply O. now apply o_call.
  - destruct (if x then at_ PRBrk ts else None) as [r1|] eqn:X.
    + destruct x; [|discriminate]. apply at_some in X. destruct X as (c & KC & ->). apply Iac in H. destruct H as (l & -> & O).
      exists (tok :: c :: l). split; [reflexivity|]. intros l0 O0. replace (l0 ++ tok :: c :: l) with ((l0 ++ [tok; c]) ++ l) by (rewrite <- app_assoc; reflexivity).
      apply O. now apply o_noindex.
    + apply pbind_good in H. destruct H as (i & r1 & H1 & H). apply I14 in H1. destruct H1 as (l & -> & R). apply need_good in H. destruct H as (c & r2 & KC & -> & H).
      apply Iac in H. destruct H as (l2 & -> & O). exists (tok :: l ++ c :: l2). split; [cbn; now rewrite <- app_assoc|]. intros l0 O0.
      replace (l0 ++ tok :: l ++ c :: l2) with ((l0 ++ tok :: l ++ [c]) ++ l2) by (rewrite <- app_assoc; cbn; rewrite <- app_assoc; reflexivity).
      apply O. now apply o_index.
  - now apply (M PDot).
  - now apply (M PDblColon).
Qed.
Lemma spr f : Sco f -> Sbr f -> Spr (S f).
Proof.
  intros Ico Ibr t x ts e r H. cbn [primary] in H. destruct ts as [|tok ts]; [discriminate|]. destruct (kind tok) as [s|v| | | | | | |p| |] eqn:K; try discriminate.
  - destruct (symbol t (tok :: ts)) as [(s' & r1)|] eqn:SY; [|discriminate]. injection H as <- <-. apply symbol_some in SY. destruct SY as (t2 & K2 & [= <- ->]). exists [tok]. split; [reflexivity|]. now apply o_sym.
  - injection H as <- <-. exists [tok]. split; [reflexivity|]. now apply o_lit.
  - injection H as <- <-. exists [tok]. split; [reflexivity|]. now apply o_this.
  - destruct p; try discriminate.
    + apply pbind_good in H. destruct H as (es & r1 & H1 & H). apply Ico in H1. destruct H1 as (l & -> & SQ). apply need_good in H. destruct H as (c & r2 & KC & -> & [= <- <-]).
      exists (tok :: l ++ [c]). split; [cbn; now rewrite <- app_assoc|]. destruct es as [|e1 [|e2 es]].
      * inversion SQ.
      * cbn [mkparen]. apply o_paren; auto. inversion SQ as [? ? ? R|? ? ? ? ? ? R KK Q]; subst; [exact R|]. inversion Q.
      * cbn [mkparen]. apply o_comma; auto. cbn. lia.
    + apply pbind_good in H. destruct H as (es & r1 & H1 & H). apply Ibr in H1. destruct H1 as (l & -> & EL). apply need_good in H. destruct H as (c & r2 & KC & -> & [= <- <-]).
      exists (tok :: l ++ [c]). split; [cbn; now rewrite <- app_assoc|]. now apply o_array.
Qed.
Lemma sco f : S14 f -> Sco f -> Sco (S f).
Proof.
  intros I14 Ico t ts e r H. cbn [commas] in H. apply pbind_good in H. destruct H as (a & r1 & H1 & H). apply I14 in H1. destruct H1 as (l & -> & R).
  destruct (at_ PComma r1) as [r2|] eqn:C.
  - apply at_some in C. destruct C as (c & KC & ->). apply pbind_good in H. destruct H as (es & r3 & H1 & [= <- <-]). apply Ico in H1. destruct H1 as (l2 & -> & Q).
    exists (l ++ c :: l2). split; [now rewrite <- app_assoc|]. now apply s_cons.
  - injection H as <- <-. exists l. split; [reflexivity|]. now apply s_one.
Qed.
Lemma sbr f : S14 f -> Sbr f -> Sbr (S f).
Proof.
  intros I14 Ibr t ts e r H. cbn [braces] in H. destruct (at_ PEllips ts) as [r0|] eqn:EL.
  - injection H as <- <-. apply at_some in EL. destruct EL as (c & KC & ->). exists [c]. split; [reflexivity|]. now apply e_dots.
  - apply pbind_good in H. destruct H as (a & r1 & H1 & H). apply I14 in H1. destruct H1 as (l & -> & R).
    destruct (at_ PComma r1) as [r2|] eqn:C.
    + apply at_some in C. destruct C as (c & KC & ->). apply pbind_good in H. destruct H as (es & r3 & H1 & [= <- <-]). apply Ibr in H1. destruct H1 as (l2 & -> & Q).
      exists (l ++ c :: l2). split; [now rewrite <- app_assoc|]. now apply e_cons.
    + injection H as <- <-. exists l. split; [reflexivity|]. now apply e_one.
Qed.
Lemma sdi f : S14 f -> Sdi f -> Sdi (S f).
Proof.
  intros I14 Idi t ts e r H. cbn [dims] in H. apply pbind_good in H. destruct H as (a & r1 & H1 & H). apply I14 in H1. destruct H1 as (l & -> & R).
  apply need_good in H. destruct H as (c & r2 & KC & -> & H). destruct (at_ PLBrk r2) as [r3|] eqn:O.
  - apply at_some in O. destruct O as (o & KO & ->). apply pbind_good in H. destruct H as (es & r4 & H1 & [= <- <-]). apply Idi in H1. destruct H1 as (l2 & -> & Q).
    exists (l ++ c :: o :: l2). split; [now rewrite <- app_assoc|]. now apply d_cons.
  - injection H as <- <-. exists (l ++ [c]). split; [now rewrite <- app_assoc|]. now apply d_one.
Qed.
Lemma spc f : Sar f -> Spc (S f).
Proof.
  intros Iar t ts e r H. cbn [parse_call] in H. destruct (at_ PRPar ts) as [r1|] eqn:C.
  - injection H as <- <-. apply at_some in C. destruct C as (c & KC & ->). exists [c]. split; [reflexivity|]. now apply a_none.
  - apply Iar in H. destruct H as (l & -> & A). exists l. split; [reflexivity|]. now apply a_some.
Qed.
Definition more (f : nat) (t named : bool) (a : arg) (r : list token) : pres (list arg) :=
  match at_ PRPar r with
  | Some r1 => PGood [a] r1
  | None => need PComma r (fun r1 => pbind (args ns f t named r1) (fun l r2 => PGood (a :: l) r2))
  end.
Lemma args_S f t n ts : args ns (S f) t n ts =
    match at_ PDot ts with
    | Some r =>
      match symbol t r with
      | Some (s, r1) =>
        need (PAsg ASet) r1 (fun r2 =>
        match r2 with
        | tok :: r3 => match kind tok with Under => more f t true ADefault r3 | _ => pbind (hier14 ns f t r2) (fun e r4 => more f t true (ANamed s e) r4) end
        | [] => PBad
        end)
      | None => PBad
      end
    | None =>
      if n then PBad
      else match ts with
      | tok :: r => match kind tok with Under => more f t false ADefault r | _ => pbind (hier14 ns f t ts) (fun e r1 => more f t false (AExpr e) r1) end
      | [] => PBad
      end
    end.
Proof. reflexivity. Qed.
Lemma more_good f t n n' a l ts e r : Sar f -> more f t n' a ts = PGood e r -> argument ns t n n' l a -> exists l2, ts = l2 ++ r /\ argument_list t n (l ++ l2) e.
Proof.
  intros Iar H A. unfold more in H. destruct (at_ PRPar ts) as [r1|] eqn:C.
  - injection H as <- <-. apply at_some in C. destruct C as (c & KC & ->). exists [c]. split; [reflexivity|]. now apply (al_last ns t n n').
  - apply need_good in H. destruct H as (c & r1 & KC & -> & H). apply pbind_good in H. destruct H as (es & r2 & H1 & [= <- <-]). apply Iar in H1. destruct H1 as (l2 & -> & AL).
    exists (c :: l2). split; [reflexivity|]. now apply (al_cons ns t n n').
Qed.
Lemma sar f : S14 f -> Sar f -> Sar (S f).
Proof.
  intros I14 Iar t n ts e r H. rewrite args_S in H. destruct (at_ PDot ts) as [r1|] eqn:DT.
  - apply at_some in DT. destruct DT as (d & KD & ->). destruct (symbol t r1) as [(s & r2)|] eqn:SY; [|discriminate]. apply symbol_some in SY. destruct SY as (tok & KT & ->).
    apply need_good in H. destruct H as (eq & r3 & KE & -> & H). destruct r3 as [|u r3]; [discriminate|].
    assert (D : pbind (hier14 ns f t (u :: r3)) (fun e r4 => more f t true (ANamed s e) r4) = PGood e r -> exists l, d :: tok :: eq :: u :: r3 = l ++ r /\ argument_list t n l e).
    { intros H1. apply pbind_good in H1. destruct H1 as (a & r4 & H1 & H2). apply I14 in H1. destruct H1 as (l & E & R).
      destruct (more_good f t n true (ANamed s a) (d :: tok :: eq :: l) r4 e r Iar H2) as (l2 & -> & AL); [now apply a_named|].
      exists ((d :: tok :: eq :: l) ++ l2). split; [cbn; rewrite E; now rewrite app_assoc|exact AL]. }
    destruct (kind u) as [| | | | | | | | | |] eqn:KU; try exact (D H).
    destruct (more_good f t n true ADefault [d; tok; eq; u] r3 e r Iar H) as (l2 & -> & AL); [now apply (a_named_default ns t n d tok eq u s)|].
    exists ([d; tok; eq; u] ++ l2). split; [reflexivity|exact AL].
  - destruct n; [discriminate|]. destruct ts as [|u ts]; [discriminate|].
    assert (D : pbind (hier14 ns f t (u :: ts)) (fun e r4 => more f t false (AExpr e) r4) = PGood e r -> exists l, u :: ts = l ++ r /\ argument_list t false l e).
    { intros H1. apply pbind_good in H1. destruct H1 as (a & r4 & H1 & H2). apply I14 in H1. destruct H1 as (l & E & R).
      destruct (more_good f t false false (AExpr a) l r4 e r Iar H2) as (l2 & -> & AL); [now apply a_expr|].
      exists (l ++ l2). split; [rewrite E; now rewrite app_assoc|exact AL]. }
    destruct (kind u) as [| | | | | | | | | |] eqn:KU; try exact (D H).
    destruct (more_good f t false false ADefault [u] ts e r Iar H) as (l2 & -> & AL); [now apply a_default|]. exists ([u] ++ l2). split; [reflexivity|exact AL].
Qed.
Lemma all_sound f : SA f.
Proof.
  induction f as [|f (I14 & I13 & Ih & Ibl & Irl & I2 & I1 & Iac & Ipr & Ico & Ibr & Idi & Ipc & Iar)].
  - repeat split; red; intros; discriminate.
  - unfold SA. repeat split.
    + now apply s14.
    + now apply s13.
    + now apply sh.
    + now apply sbl.
    + now apply srl.
    + now apply s2.
    + now apply s1.
    + now apply sac.
    + now apply spr.
    + now apply sco.
    + now apply sbr.
    + now apply sdi.
    + now apply spc.
    + now apply sar.
Qed.
Theorem parse_sound f t ts e rest : hier14 ns f t ts = PGood e rest -> exists l, ts = l ++ rest /\ reads t 12 l e.
Proof. exact (proj1 (all_sound f) t ts e rest). Qed.
End Sound.
