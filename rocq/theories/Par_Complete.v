(* Everything in the grammar is read: C47. *)
From Verif Require Import Base Par_Model Par_Spec Par_Proofs.
From Coq Require Import Lia.

(* From some amount of fuel on. *)
Definition ev {A} (g : nat -> A) (r : A) : Prop := exists N, forall n, (N <= n)%nat -> g n = r.
Lemma ev_const {A} (r : A) : ev (fun _ => r) r. Proof. exists O. auto. Qed.
Lemma ev_S {A} (g h : nat -> A) r : (forall f, g (S f) = h f) -> ev h r -> ev g r.
Proof. intros E (N & H). exists (S N). intros n L. destruct n as [|n]; [lia|]. rewrite E. apply H. lia. Qed.
Lemma ev_ext {A} (g h : nat -> A) r : (forall f, g f = h f) -> ev h r -> ev g r.
Proof. intros E (N & H). exists N. intros n L. rewrite E. now apply H. Qed.
Lemma ev_bind {A B} (m : nat -> pres A) (k : nat -> A -> list token -> pres B) a s r :
  ev m (PGood a s) -> ev (fun f => k f a s) r -> ev (fun f => pbind (m f) (k f)) r.
Proof. intros (N & H) (M & H'). exists (N + M)%nat. intros n L. rewrite H by lia. cbn [pbind]. apply H'. lia. Qed.
Lemma ev_need {A} p t ts (k : nat -> list token -> pres A) r : kind t = P p -> ev (fun f => k f ts) r -> ev (fun f => need p (t :: ts) (k f)) r.
Proof. intros K H. eapply ev_ext; [|exact H]. intros f. unfold need. now rewrite (at_here p t ts K). Qed.
Lemma ev_unique {A} (g : nat -> A) a b : ev g a -> ev g b -> a = b.
Proof. intros (N & H) (M & H'). rewrite <- (H (N + M)%nat), <- (H' (N + M)%nat) by lia. reflexivity. Qed.

Definition opstart (k : tk) : bool :=
  match k with Sym _ | Lit _ | This | ViewAs | P PLPar | P PLBrace => true | _ => false end.
Definition startb (k : tk) : bool :=
  opstart k || match k with New | Sizeof | P PInc | P PDec | P PTilde | P PMinus | P PBang => true | _ => false end.

Lemma glued_app l r : l <> [] -> glued (l ++ r) = match glued l with Some l' => Some (l' ++ r) | None => None end.
Proof. destruct l as [|t l]; [contradiction|]. intros _. cbn. destruct (kind t) as [| | | | | | | | |[]|]; reflexivity. Qed.
Lemma glued_none_app l t r : glued l = None -> kind t <> Colon true -> glued (l ++ t :: r) = None.
Proof.
  intros G K. destruct l as [|x l].
  - cbn. destruct (kind t) as [| | | | | | | | |[]|]; try reflexivity. contradiction.
  - rewrite glued_app by discriminate. now rewrite G.
Qed.

Section Heads.
Variable ns : bool.
Definition HR (t : bool) (k : nat) (l : list token) (e : expr) (_ : reads ns t k l e) : Prop := exists tok r, l = tok :: r /\ startb (kind tok) = true.
Definition HO (t x : bool) (l : list token) (e : expr) (_ : operand ns t x l e) : Prop :=
  exists tok r, l = tok :: r /\ opstart (kind tok) = true /\ forall s, kind tok = Sym s -> glued r = None.
Lemma heads : (forall t k l e H, HR t k l e H) /\ (forall t x l e H, HO t x l e H).
Proof.
  assert (B : (forall t k l e H, HR t k l e H) /\ (forall t x l e H, HO t x l e H)
     /\ (forall t l c (H : chain ns t l c), True) /\ (forall t l c (H : sequence ns t l c), True) /\ (forall t l c b (H : elements ns t l c b), True)
     /\ (forall t l c (H : dimensions ns t l c), True) /\ (forall t l c (H : arguments ns t l c), True) /\ (forall t n l c (H : argument_list ns t n l c), True)
     /\ (forall t n n' l c (H : argument ns t n n' l c), True)).
  2: { destruct B as (B1 & B2 & _). split; assumption. }
  apply reads_mut; unfold HR, HO; auto; intros.
  - destruct H as (tok' & rr & -> & O & _). exists tok', rr. split; [reflexivity|]. unfold startb. now rewrite O.
  - exists tok, l. split; [reflexivity|]. rewrite e0. destruct op; try discriminate e1; reflexivity.
  - exists tok, l. split; [reflexivity|]. rewrite e0. destruct op; try discriminate e1; reflexivity.
  - destruct H as (tok' & rr & -> & O & _). exists tok', (rr ++ [tok]). split; [reflexivity|]. unfold startb. now rewrite O.
  - exists tok, (col :: l). split; [reflexivity|]. now rewrite e0.
  - exists kw, (tok :: o :: l). split; [reflexivity|]. now rewrite e.
  - exists kw, (tok :: o :: l). split; [reflexivity|]. now rewrite e.
  - exists kw, (o ++ l ++ c). split; [reflexivity|]. now rewrite e0.
  - destruct H as (tok' & rr & -> & O). exists tok', (rr ++ tok :: l2). split; [reflexivity|exact O].
  - destruct H as (tok' & rr & -> & O). exists tok', (rr ++ tok :: l2). split; [reflexivity|exact O].
  - destruct H as (tok' & rr & -> & O). exists tok', (rr ++ l2). split; [reflexivity|exact O].
  - destruct H as (tok' & rr & -> & O). exists tok', (rr ++ q :: l2 ++ col :: l3). split; [reflexivity|exact O].
  - destruct H as (tok' & rr & -> & O). exists tok', (rr ++ tok :: l2). split; [reflexivity|exact O].
  - exists tok, []. split; [reflexivity|]. split; [now rewrite e|reflexivity].
  - exists tok, []. split; [reflexivity|]. split; [now rewrite e|reflexivity].
  - exists tok, []. split; [reflexivity|]. split; [now rewrite e|reflexivity].
  - exists o, (l ++ [c]). split; [reflexivity|]. unfold open_par in o0. rewrite o0. split; [reflexivity|discriminate].
  - exists o, (l ++ [c]). split; [reflexivity|]. unfold open_par in o0. rewrite o0. split; [reflexivity|discriminate].
  - exists o, (l ++ [c]). split; [reflexivity|]. rewrite e. split; [reflexivity|discriminate].
  - exists kw, (lt :: tok :: gt :: o :: l ++ [c]). split; [reflexivity|]. rewrite e0. split; [reflexivity|discriminate].
  - destruct H as (tok' & rr & -> & O & G). exists tok', (rr ++ [dot; tok]). split; [reflexivity|]. split; [exact O|].
    intros s' K. apply glued_none_app; [exact (G _ K)|]. rewrite e0. discriminate.
  - destruct H as (tok' & rr & -> & O & G). exists tok', (rr ++ o :: l2 ++ [c]). split; [reflexivity|]. split; [exact O|].
    intros s' K. apply glued_none_app; [exact (G _ K)|]. rewrite e0. discriminate.
  - destruct H as (tok' & rr & -> & O & G). exists tok', (rr ++ [o; c]). split; [reflexivity|]. split; [exact O|].
    intros s' K. apply glued_none_app; [exact (G _ K)|]. rewrite e0. discriminate.
  - destruct H as (tok' & rr & -> & O & G). exists tok', (rr ++ o :: l2). split; [reflexivity|]. split; [exact O|].
    intros s' K. apply glued_none_app; [exact (G _ K)|]. unfold open_par in o1. rewrite o1. discriminate.
Qed.
Lemma reads_head t k l e : reads ns t k l e -> exists tok r, l = tok :: r /\ startb (kind tok) = true.
Proof. exact (proj1 heads t k l e). Qed.
Lemma operand_head t x l e : operand ns t x l e -> exists tok r, l = tok :: r /\ opstart (kind tok) = true /\ forall s, kind tok = Sym s -> glued r = None.
Proof. exact (proj2 heads t x l e). Qed.
Lemma reads_at t k l e p r : reads ns t k l e -> startb (P p) = false -> at_ p (l ++ r) = None.
Proof.
  intros R S. destruct (reads_head _ _ _ _ R) as (tok & l' & -> & H). cbn. destruct (kind tok) as [| | | | | | | |q| |]; try reflexivity.
  destruct (punct_beq p q) eqn:E; [|reflexivity]. apply punct_beq_eq in E. subst. congruence.
Qed.
End Heads.

Section Complete.
Variable ns : bool.
Notation ends := (ends ns).

Definition top (f k : nat) (t : bool) (ts : list token) : pres expr :=
  if (k <=? 10)%nat then hier ns f k t ts else if (k =? 11)%nat then hier13 ns f t ts else hier14 ns f t ts.
Definition loops (k : nat) : Prop := (1 <= k <= 10)%nat /\ k <> 7%nat.

Definition CR (t : bool) (k : nat) (l : list token) (e : expr) (_ : reads ns t k l e) : Prop :=
  (k <= 12)%nat /\
  (forall rest, ends t k rest -> ev (fun f => top f k t (l ++ rest)) (PGood e rest)) /\
  (loops k -> forall rest r, ends t (pred k) rest -> ev (fun f => bin_loop ns f k t e rest) r -> ev (fun f => hier ns f k t (l ++ rest)) r).
Definition CO (t x : bool) (l : list token) (e : expr) (_ : operand ns t x l e) : Prop :=
  forall rest r, (t = true -> glued rest = None) -> ev (fun f => accesses ns f t x e rest) r -> ev (fun f => hier1 ns f t x (l ++ rest)) r.
Definition CC (t : bool) (l : list token) (c : list (punct * expr)) (_ : chain ns t l c) : Prop :=
  forall rest, ends t 7 rest -> ev (fun f => rel_loop ns f t (l ++ rest)) (PGood c rest).
Definition CS (t : bool) (l : list token) (es : list expr) (_ : sequence ns t l es) : Prop :=
  forall c rest, kind c = P PRPar -> ev (fun f => commas ns f t (l ++ c :: rest)) (PGood es (c :: rest)).
Definition CE (t : bool) (l : list token) (es : list expr) (b : bool) (_ : elements ns t l es b) : Prop :=
  forall c rest, kind c = P PRBrace -> ev (fun f => braces ns f t (l ++ c :: rest)) (PGood (es, b) (c :: rest)).
Definition CD (t : bool) (l : list token) (es : list expr) (_ : dimensions ns t l es) : Prop :=
  forall rest, at_ PLBrk rest = None -> ev (fun f => dims ns f t (l ++ rest)) (PGood es rest).
Definition CA (t : bool) (l : list token) (es : list arg) (_ : arguments ns t l es) : Prop :=
  forall rest, ev (fun f => parse_call ns f t (l ++ rest)) (PGood es rest).
Definition CL (t n : bool) (l : list token) (es : list arg) (_ : argument_list ns t n l es) : Prop :=
  forall rest, ev (fun f => args ns f t n (l ++ rest)) (PGood es rest) /\ at_ PRPar (l ++ rest) = None.
Definition CG (t n n' : bool) (l : list token) (a : arg) (_ : argument ns t n n' l a) : Prop :=
  forall c rest r, kind c = P PRPar \/ kind c = P PComma ->
    (ev (fun f => more ns f t n' a (c :: rest)) r -> ev (fun f => args ns f t n (l ++ c :: rest)) r) /\ at_ PRPar (l ++ c :: rest) = None.

Lemma ends_le t k j rest : ends t k rest -> (j <= k)%nat -> ends t j rest.
Proof. destruct rest as [|tok rest]; [auto|]. cbn. destruct (goes_on ns t tok); [lia|auto]. Qed.
Lemma ends_none t k tok rest : goes_on ns t tok = None -> ends t k (tok :: rest).
Proof. intros H. cbn. now rewrite H. Qed.
Lemma ends_glued t k rest : ends t k rest -> t = true -> glued rest = None.
Proof. intros E ->. destruct rest as [|tok rest]; [reflexivity|]. cbn in *. unfold goes_on in E. destruct (kind tok) as [| | | | | | | | |[]|]; try reflexivity. lia. Qed.
Lemma goes_prec op tok t j : kind tok = P op -> prec op = Some j -> goes_on ns t tok = Some j.
Proof. intros K PR. unfold goes_on. rewrite K. destruct op; try discriminate PR; exact PR. Qed.

Lemma accesses_ends t x e rest : ends t 0 rest -> ev (fun f => accesses ns f t x e rest) (PGood e rest).
Proof.
  intros E. apply (ev_S _ (fun _ => PGood e rest)); [|apply ev_const]. intros f. cbn [accesses]. destruct rest as [|tok rest]; [reflexivity|].
  cbn in E. unfold goes_on in E. destruct (kind tok) as [| | | | | | | |p| |]; try reflexivity. destruct p; try reflexivity; lia.
Qed.
Lemma postfix_ends t e rest : ends t 0 rest -> postfix ns e rest = PGood e rest.
Proof.
  intros E. destruct rest as [|tok rest]; [reflexivity|]. cbn in E |- *. unfold goes_on in E. destruct (negb ns && bol tok); [reflexivity|].
  destruct (kind tok) as [| | | | | | | |p| |]; try reflexivity. destruct p; try reflexivity; lia.
Qed.
Lemma hier2_operand f t l e rest : operand ns t false l e -> (t = true -> glued rest = None) ->
  hier2 ns (S f) t (l ++ rest) = pbind (hier1 ns f t false (l ++ rest)) (fun node r => postfix ns node r).
Proof.
  intros O G. destruct (operand_head ns _ _ _ _ O) as (tok & r & -> & OS & GS). cbn [app]. cbn [hier2].
  destruct (kind tok) as [s|v| | |s| | | |p|g|z] eqn:K; try discriminate OS; try reflexivity.
  - destruct t; [|reflexivity]. replace (glued (r ++ rest)) with (@None (list token)); [reflexivity|].
    destruct r as [|x r]; [symmetry; now apply G|]. rewrite glued_app by discriminate. now rewrite (GS s eq_refl).
  - destruct p; try discriminate OS; reflexivity.
Qed.
Lemma hier1_primary f t x tok r : kind tok <> ViewAs -> hier1 ns (S f) t x (tok :: r) = pbind (primary ns f t (tok :: r)) (fun b r1 => accesses ns f t x b r1).
Proof. intros K. cbn [hier1]. destruct (kind tok); try reflexivity. contradiction. Qed.

(* From the loop's point of view to the whole level's. *)
Lemma level_ends t k l e : loops k ->
  (forall rest r, ends t (pred k) rest -> ev (fun f => bin_loop ns f k t e rest) r -> ev (fun f => hier ns f k t (l ++ rest)) r) ->
  forall rest, ends t k rest -> ev (fun f => top f k t (l ++ rest)) (PGood e rest).
Proof.
  intros ((B1 & B2) & B3) H rest E. apply (ev_ext _ (fun f => hier ns f k t (l ++ rest))).
  { intros f. unfold top. replace (k <=? 10)%nat with true by (symmetry; now apply Nat.leb_le). reflexivity. }
  apply H; [apply (ends_le t k); [exact E|lia]|]. apply (ev_S _ (fun _ => PGood e rest)); [|apply ev_const].
  intros f. cbn [bin_loop]. now rewrite (nextop_none k t rest ns E).
Qed.
Lemma top_hier f k t ts : (k <= 10)%nat -> top f k t ts = hier ns f k t ts.
Proof. intros H. unfold top. now rewrite (proj2 (Nat.leb_le k 10) H). Qed.
Lemma top0 t l e (R : reads ns t 0 l e) : (forall rest, ends t 0 rest -> ev (fun f => hier2 ns f t (l ++ rest)) (PGood e rest)) -> CR t 0 l e R.
Proof.
  intros H. split; [lia|]. split; [|intros [B _]; lia]. intros rest E. apply (ev_S _ (fun f => hier2 ns f t (l ++ rest))); [reflexivity|]. now apply H.
Qed.
Lemma top0_inv t l e (R : reads ns t 0 l e) : CR t 0 l e R -> forall rest, ends t 0 rest -> ev (fun f => hier2 ns f t (l ++ rest)) (PGood e rest).
Proof.
  intros (_ & H & _) rest E. destruct (H rest E) as (N & H1). exists N. intros n L. rewrite <- (H1 (S n)) by lia. reflexivity.
Qed.

Lemma c_up t k l e (R : reads ns t k l e) (L : (k < 12)%nat) : CR t k l e R -> CR t (S k) l e (r_up ns t k l e R L).
Proof.
  intros (_ & H & _). split; [lia|].
  assert (LP : loops (S k) -> forall rest r, ends t (pred (S k)) rest -> ev (fun f => bin_loop ns f (S k) t e rest) r -> ev (fun f => hier ns f (S k) t (l ++ rest)) r).
  { intros ((B1 & B2) & B3) rest r E V. apply Nat.eqb_neq in B3.
    apply (ev_S _ (fun f => pbind (hier ns f k t (l ++ rest)) (fun a r => bin_loop ns f (S k) t a r))).
    { intros f. cbn [hier]. rewrite B3. reflexivity. }
    apply ev_bind with (a := e) (s := rest); [|exact V]. eapply ev_ext; [|apply (H rest); exact E]. intros f. symmetry. apply top_hier. lia. }
  split; [|exact LP].
  assert (D : loops (S k) \/ k = 6%nat \/ k = 10%nat \/ k = 11%nat) by (unfold loops; lia).
  destruct D as [D|[-> |[-> | -> ]]].
  - apply level_ends; auto.
  - intros rest E. apply (ev_S _ (fun f => pbind (hier ns f 6 t (l ++ rest)) (fun a r => pbind (rel_loop ns f t r) (fun c r1 => PGood (mkrel a c) r1)))); [reflexivity|].
    apply ev_bind with (a := e) (s := rest); [apply H; apply (ends_le t 7); [exact E|lia]|].
    apply ev_bind with (a := []) (s := rest); [|apply ev_const]. apply (ev_S _ (fun _ => PGood [] rest)); [|apply ev_const].
    intros f. cbn [rel_loop]. now rewrite (nextop_none 7 t rest ns E).
  - intros rest E. apply (ev_S _ (fun f => pbind (hier ns f 10 t (l ++ rest)) (fun c r => 
      match at_ PQuestion r with
      | Some r1 =>
        pbind (hier13 ns f false r1) (fun a r2 =>
        match r2 with
        | t3 :: r3 => match kind t3 with Colon _ => pbind (hier13 ns f t r3) (fun b r4 => PGood (ETernary c a b) r4) | _ => PBad end
        | [] => PBad
        end)
      | None => PGood c r
      end))); [reflexivity|].
    apply ev_bind with (a := e) (s := rest); [apply H; apply (ends_le t 11); [exact E|lia]|].
    replace (at_ PQuestion rest) with (@None (list token)); [apply ev_const|]. destruct rest as [|tok rest]; [reflexivity|]. cbn in E |- *.
    unfold goes_on in E. destruct (kind tok) as [| | | | | | | |p| |]; try reflexivity. destruct p; try reflexivity. lia.
  - intros rest E. apply (ev_S _ (fun f => pbind (hier13 ns f t (l ++ rest)) (fun a r =>
      match r with
      | t1 :: r1 => match kind t1 with P (PAsg o) => pbind (hier14 ns f t r1) (fun b r2 => PGood (EAssign o a b) r2) | _ => PGood a r end
      | [] => PGood a r
      end))); [reflexivity|].
    apply ev_bind with (a := e) (s := rest); [apply H; apply (ends_le t 12); [exact E|lia]|].
    destruct rest as [|tok rest]; [apply ev_const|]. cbn in E. unfold goes_on in E. destruct (kind tok) as [| | | | | | | |p| |]; try apply ev_const. destruct p; try apply ev_const. lia.
Qed.
Lemma c_operand t l e (O : operand ns t false l e) : CO t false l e O -> CR t 0 l e (r_operand ns t l e O).
Proof.
  intros H. apply top0. intros rest E. apply (ev_S _ (fun f => pbind (hier1 ns f t false (l ++ rest)) (fun node r => postfix ns node r))).
  { intros f. now apply (hier2_operand f t l e rest O), (ends_glued t 0). }
  apply ev_bind with (a := e) (s := rest); [|rewrite (postfix_ends t e rest E); apply ev_const].
  apply H; [now apply (ends_glued t 0)|now apply accesses_ends].
Qed.
Lemma c_postinc t op tok l e O K S0 B : CO t false l e O -> CR t 0 (l ++ [tok]) (EPostInc op e) (r_postinc ns t op tok l e O K S0 B).
Proof.
  intros H. apply top0. intros rest E. rewrite <- app_assoc. cbn [app].
  assert (G : t = true -> glued (tok :: rest) = None) by (intros _; cbn; now rewrite K).
  apply (ev_S _ (fun f => pbind (hier1 ns f t false (l ++ tok :: rest)) (fun node r => postfix ns node r))).
  { intros f. now apply (hier2_operand f t l e (tok :: rest) O). }
  apply ev_bind with (a := e) (s := tok :: rest).
  - apply H; [exact G|]. apply (ev_S _ (fun _ => PGood e (tok :: rest))); [|apply ev_const]. intros f. cbn [accesses]. rewrite K. destruct op; try discriminate S0; reflexivity.
  - cbn [postfix]. replace (negb ns && bol tok) with false by (destruct B as [B|B]; rewrite B; [reflexivity|now rewrite andb_false_r]).
    rewrite K. destruct op; try discriminate S0; apply ev_const.
Qed.
Lemma c_unary t tok l e (R : reads ns t 0 l e) g (R' : reads ns t 0 (tok :: l) (g e)) :
  (forall f rest, hier2 ns (S f) t (tok :: l ++ rest) = pbind (hier2 ns f t (l ++ rest)) (fun e r => PGood (g e) r)) -> CR t 0 l e R -> CR t 0 (tok :: l) (g e) R'.
Proof.
  intros Q H. apply top0. intros rest E. cbn [app]. apply (ev_S _ (fun f => pbind (hier2 ns f t (l ++ rest)) (fun e r => PGood (g e) r))); [intros f; apply Q|].
  apply ev_bind with (a := e) (s := rest); [|apply ev_const]. exact (top0_inv _ _ _ _ H rest E).
Qed.
Lemma c_castc s tok col l e K KC R : CR true 0 l e R -> CR true 0 (tok :: col :: l) (ECast s e) (r_cast ns s tok col l e K KC R).
Proof.
  intros H. apply top0. intros rest E. cbn [app]. apply (ev_S _ (fun f => pbind (hier2 ns f true (l ++ rest)) (fun e r => PGood (ECast s e) r))).
  { intros f. cbn [hier2]. rewrite K. cbn [glued]. rewrite KC. reflexivity. }
  apply ev_bind with (a := e) (s := rest); [|apply ev_const]. exact (top0_inv _ _ _ _ H rest E).
Qed.
Lemma symbol_here t s tok r : kind tok = Sym s -> (t = true -> glued r = None) -> symbol t (tok :: r) = Some (s, r).
Proof. intros K G. cbn. rewrite K. destruct (glued r); [|reflexivity]. destruct t; [|reflexivity]. discriminate (G eq_refl). Qed.
Lemma typename_here t s tok r : kind tok = Sym s \/ kind tok = Ty s -> (t = true -> glued r = None) -> typename t (tok :: r) = Some (s, r).
Proof. intros [K|K] G; unfold typename; rewrite K; [|reflexivity]. now apply symbol_here. Qed.
Lemma glued_p p o r : kind o = P p -> glued (o :: r) = None. Proof. intros K. cbn. now rewrite K. Qed.
Lemma c_new t s kw tok o l a K KT O A : CA t l a A -> CR t 0 (kw :: tok :: o :: l) (ENew s a) (r_new ns t s kw tok o l a K KT O A).
Proof.
  intros H. apply top0. intros rest E. cbn [app]. apply (ev_S _ (fun f => pbind (parse_call ns f t (l ++ rest)) (fun a r => PGood (ENew s a) r))).
  { intros f. cbn [hier2]. rewrite K. rewrite (symbol_here t s tok _ KT) by (intros; exact (glued_p PLPar o _ O)). rewrite (at_here PLPar o _ O). reflexivity. }
  apply ev_bind with (a := a) (s := rest); [|apply ev_const]. apply H.
Qed.
Lemma c_newarray t s kw tok o l a K KT O D : CD t l a D -> CR t 0 (kw :: tok :: o :: l) (ENewArray s a) (r_newarray ns t s kw tok o l a K KT O D).
Proof.
  intros H. apply top0. intros rest E. cbn [app]. apply (ev_S _ (fun f => pbind (dims ns f t (l ++ rest)) (fun a r => PGood (ENewArray s a) r))).
  { intros f. cbn [hier2]. rewrite K. assert (G : t = true -> glued (o :: l ++ rest) = None) by (intros; now apply (glued_p PLBrk)).
    destruct (symbol t (tok :: o :: l ++ rest)) as [(s' & r')|] eqn:SY.
    - destruct KT as [KT|KT]; [|cbn in SY; rewrite KT in SY; discriminate]. rewrite (symbol_here t s tok _ KT G) in SY. injection SY as <- <-.
      rewrite (at_not PLPar PLBrk o _ O) by discriminate. unfold need. now rewrite (at_here PLBrk o _ O).
    - rewrite (typename_here t s tok _ KT G). unfold need. now rewrite (at_here PLBrk o _ O). }
  apply ev_bind with (a := a) (s := rest); [|apply ev_const]. apply H. destruct rest as [|x rest]; [reflexivity|]. cbn in E |- *.
  unfold goes_on in E. destruct (kind x) as [| | | | | | | |p| |]; try reflexivity. destruct p; try reflexivity. lia.
Qed.
Lemma strip_app o l : Forall open_par o -> (forall x r, l = x :: r -> ~ open_par x) -> strip (o ++ l) = (length o, l).
Proof.
  intros F N. induction F as [|x o K F IH]; cbn [app strip length].
  - destruct l as [|x l]; [reflexivity|]. cbn [strip]. specialize (N x l eq_refl). unfold open_par in N. destruct (kind x) as [| | | | | | | |p| |]; try reflexivity.
    destruct p; try reflexivity. contradiction.
  - unfold open_par in K. rewrite K, IH. reflexivity.
Qed.
Lemma closing_app {A} c : forall rest (k : list token -> pres A), Forall close_par c -> closing (length c) (c ++ rest) k = k rest.
Proof. induction c as [|x c IH]; intros rest k F; [reflexivity|]. inversion F as [|? ? K F']; subst. cbn [length closing app]. unfold need. rewrite (at_here PRPar x _ K). now apply IH. Qed.
Lemma c_sizeof t kw o l c e K FO FC L O N : CO t true l e O -> CR t 0 (kw :: o ++ l ++ c) (ESizeof e) (r_sizeof ns t kw o l c e K FO FC L O N).
Proof.
  intros H. apply top0. intros rest E. cbn [app]. rewrite <- !app_assoc.
  assert (G : ends t 0 (c ++ rest)).
  { destruct FC as [|x c KC FC]; [exact E|]. apply ends_none. unfold goes_on, close_par in *. now rewrite KC. }
  apply (ev_S _ (fun f => pbind (hier1 ns f t true (l ++ c ++ rest)) (fun e r => closing (length o) r (fun r3 => PGood (ESizeof e) r3)))).
  { intros f. cbn [hier2]. rewrite K. rewrite strip_app; [reflexivity|exact FO|]. intros x r Q.
    destruct (operand_head ns _ _ _ _ O) as (tok & l' & -> & _). injection Q as <- _. now apply (N tok l'). }
  apply ev_bind with (a := e) (s := c ++ rest).
  - apply H; [now apply (ends_glued t 0)|now apply accesses_ends].
  - apply (ev_ext _ (fun _ => PGood (ESizeof e) rest)); [|apply ev_const]. intros f. rewrite <- L. now apply closing_app.
Qed.
Lemma c_binary t k op tok l1 a l2 b K PR NE R1 R2 : CR t (S k) l1 a R1 -> CR t k l2 b R2 ->
  CR t (S k) (l1 ++ tok :: l2) (match op with PAnd | POr => ELogic op a b | _ => EBin op a b end) (r_binary ns t k op tok l1 a l2 b K PR NE R1 R2).
Proof.
  intros (L & _ & H1) (_ & H2 & _).
  assert (LP : loops (S k)) by (split; [|exact NE]; destruct op; try discriminate PR; injection PR as <-; lia).
  assert (G : forall rest r, ends t k rest -> ev (fun f => bin_loop ns f (S k) t (match op with PAnd | POr => ELogic op a b | _ => EBin op a b end) rest) r ->
      ev (fun f => hier ns f (S k) t ((l1 ++ tok :: l2) ++ rest)) r).
  { intros rest r E V. rewrite <- app_assoc. cbn [app]. apply (H1 LP).
    - cbn [Par_Spec.ends]. rewrite (goes_prec op tok t (S k) K PR). cbn. lia.
    - apply (ev_S _ (fun f => pbind (hier ns f k t (l2 ++ rest)) (fun b r1 => bin_loop ns f (S k) t (mkbin op a b) r1))).
      { intros f. cbn [bin_loop]. rewrite (proj2 (nextop_some (S k) (tok :: l2 ++ rest) op (l2 ++ rest))) by eauto. reflexivity. }
      apply ev_bind with (a := b) (s := rest).
      + eapply ev_ext; [|apply (H2 rest E)]. intros f. symmetry. apply top_hier. destruct LP. lia.
      + rewrite mkbin_eq. exact V. }
  split; [exact L|]. split; [|intros _; exact G]. apply level_ends; [exact LP|exact G].
Qed.
Lemma c_rel t l1 a l2 c (R1 : reads ns t 6 l1 a) (C : chain ns t l2 c) e R : c <> [] -> mkrel a c = e -> CR t 6 l1 a R1 -> CC t l2 c C -> CR t 7 (l1 ++ l2) e R.
Proof.
  intros NE <- (_ & H1 & _) H2. split; [lia|]. split; [|intros [_ B]; lia]. intros rest E. rewrite <- app_assoc.
  apply (ev_S _ (fun f => pbind (hier ns f 6 t (l1 ++ l2 ++ rest)) (fun a r => pbind (rel_loop ns f t r) (fun c r1 => PGood (mkrel a c) r1)))); [reflexivity|].
  apply ev_bind with (a := a) (s := l2 ++ rest).
  - apply H1. inversion C as [|? op tok ? ? ? ? K PR]; subst; [contradiction|]. cbn [app Par_Spec.ends]. rewrite (goes_prec op tok t 7 K PR). lia.
  - apply ev_bind with (a := c) (s := rest); [now apply H2|apply ev_const].
Qed.
Lemma c_ternary t q col g l1 c l2 a l3 b K KC R1 R2 R3 : CR t 10 l1 c R1 -> CR false 11 l2 a R2 -> CR t 11 l3 b R3 ->
  CR t 11 (l1 ++ q :: l2 ++ col :: l3) (ETernary c a b) (r_ternary ns t q col g l1 c l2 a l3 b K KC R1 R2 R3).
Proof.
  intros (_ & H1 & _) (_ & H2 & _) (_ & H3 & _). split; [lia|]. split; [|intros [B _]; lia]. intros rest E.
  rewrite <- app_assoc. cbn [app]. rewrite <- app_assoc. cbn [app].
  apply (ev_S _ (fun f => pbind (hier ns f 10 t (l1 ++ q :: l2 ++ col :: l3 ++ rest)) (fun c r => 
      match at_ PQuestion r with
      | Some r1 =>
        pbind (hier13 ns f false r1) (fun a r2 =>
        match r2 with
        | t3 :: r3 => match kind t3 with Colon _ => pbind (hier13 ns f t r3) (fun b r4 => PGood (ETernary c a b) r4) | _ => PBad end
        | [] => PBad
        end)
      | None => PGood c r
      end))); [reflexivity|].
  apply ev_bind with (a := c) (s := q :: l2 ++ col :: l3 ++ rest).
  - apply H1. cbn. unfold goes_on. rewrite K. lia.
  - rewrite (at_here PQuestion q _ K). apply ev_bind with (a := a) (s := col :: l3 ++ rest).
    + apply (H2 (col :: l3 ++ rest)). cbn. unfold goes_on. rewrite KC. destruct g; exact I.
    + rewrite KC. apply ev_bind with (a := b) (s := rest); [|apply ev_const]. now apply H3.
Qed.
Lemma c_assign t o tok l1 a l2 b K R1 R2 : CR t 11 l1 a R1 -> CR t 12 l2 b R2 -> CR t 12 (l1 ++ tok :: l2) (EAssign o a b) (r_assign ns t o tok l1 a l2 b K R1 R2).
Proof.
  intros (_ & H1 & _) (_ & H2 & _). split; [lia|]. split; [|intros [B _]; lia]. intros rest E. rewrite <- app_assoc. cbn [app].
  apply (ev_S _ (fun f => pbind (hier13 ns f t (l1 ++ tok :: l2 ++ rest)) (fun a r =>
      match r with
      | t1 :: r1 => match kind t1 with P (PAsg o) => pbind (hier14 ns f t r1) (fun b r2 => PGood (EAssign o a b) r2) | _ => PGood a r end
      | [] => PGood a r
      end))); [reflexivity|].
  apply ev_bind with (a := a) (s := tok :: l2 ++ rest).
  - apply H1. cbn. unfold goes_on. rewrite K. lia.
  - rewrite K. apply ev_bind with (a := b) (s := rest); [|apply ev_const]. now apply H2.
Qed.

(* ---- operands ---- *)
Lemma c_prim t x tok l e : kind tok <> ViewAs -> forall rest r,
  ev (fun f => primary ns f t (tok :: l ++ rest)) (PGood e rest) -> ev (fun f => accesses ns f t x e rest) r -> ev (fun f => hier1 ns f t x ((tok :: l) ++ rest)) r.
Proof.
  intros K rest r H V. cbn [app]. apply (ev_S _ (fun f => pbind (primary ns f t (tok :: l ++ rest)) (fun b r1 => accesses ns f t x b r1))); [intros f; now apply hier1_primary|].
  apply ev_bind with (a := e) (s := rest); assumption.
Qed.
Lemma full12 t l e R c rest : CR t 12 l e R -> goes_on ns t c = None -> ev (fun f => hier14 ns f t (l ++ c :: rest)) (PGood e (c :: rest)).
Proof. intros (_ & H & _) G. apply (H (c :: rest)). now apply ends_none. Qed.
Lemma go_p p t c : kind c = P p -> match p with PRPar | PComma | PRBrk | PRBrace | PSemi => True | _ => False end -> goes_on ns t c = None.
Proof. intros K Q. unfold goes_on. rewrite K. destruct p; try contradiction; reflexivity. Qed.

Lemma complete :
  (forall t k l e H, CR t k l e H) /\ (forall t x l e H, CO t x l e H) /\ (forall t l c H, CC t l c H) /\ (forall t l es H, CS t l es H)
  /\ (forall t l es b H, CE t l es b H) /\ (forall t l es H, CD t l es H) /\ (forall t l es H, CA t l es H) /\ (forall t n l es H, CL t n l es H)
  /\ (forall t n n' l a H, CG t n n' l a H).
Proof.
  apply reads_mut.
  - intros. now apply c_up.
  - intros. now apply c_operand.
  - intros t op tok l e K U R H. apply (c_unary t tok l e R (EUnary op)); [|exact H]. intros f rest. cbn [hier2]. rewrite K. destruct op; try discriminate U; reflexivity.
  - intros t op tok l e K U R H. apply (c_unary t tok l e R (EPreInc op)); [|exact H]. intros f rest. cbn [hier2]. rewrite K. destruct op; try discriminate U; reflexivity.
  - intros. now apply c_postinc.
  - intros. now apply c_castc.
  - intros. now apply c_new.
  - intros. now apply c_newarray.
  - intros. now apply c_sizeof.
  - intros. now apply c_binary.
  - intros t op tok l1 a l2 b K PR R1 H1 R2 H2.
    assert (C : chain ns t (tok :: l2 ++ []) [(op, b)]) by (apply c_cons; auto; constructor). 
    assert (CH : CC t (tok :: l2 ++ []) [(op, b)] C).
    { intros rest E. rewrite app_nil_r. cbn [app]. apply (ev_S _ (fun f => pbind (hier ns f 6 t (l2 ++ rest)) (fun b r1 => pbind (rel_loop ns f t r1) (fun l r2 => PGood ((op, b) :: l) r2)))).
      { intros f. cbn [rel_loop]. rewrite (proj2 (nextop_some 7 (tok :: l2 ++ rest) op (l2 ++ rest))) by eauto. reflexivity. }
      apply ev_bind with (a := b) (s := rest); [apply (proj1 (proj2 H2)); apply (ends_le t 7); [exact E|lia]|].
      apply ev_bind with (a := []) (s := rest); [|apply ev_const]. apply (ev_S _ (fun _ => PGood [] rest)); [|apply ev_const].
      intros f. cbn [rel_loop]. now rewrite (nextop_none 7 t rest ns E). }
    revert C CH. rewrite app_nil_r. intros C CH. apply (c_rel t l1 a (tok :: l2) [(op, b)] R1 C); auto. discriminate.
  - intros t l1 a l2 c R1 H1 C H2 L. apply (c_rel t l1 a l2 c R1 C); auto; [destruct c; cbn in L; [lia|discriminate]|]. destruct c as [|(? & ?) [|? ?]]; cbn in L; try lia. reflexivity.
  - intros. now apply c_ternary.
  - intros. now apply c_assign.
  - intros t x s tok K rest r G V. apply (c_prim t x tok [] (ESym s)); [congruence| |exact V]. apply (ev_S _ (fun _ => PGood (ESym s) rest)); [|apply ev_const].
    intros f. cbn [primary app]. rewrite K. rewrite (symbol_here t s tok rest K G). reflexivity.
  - intros t x v tok K rest r G V. apply (c_prim t x tok [] (ELit v)); [congruence| |exact V]. apply (ev_S _ (fun _ => PGood (ELit v) rest)); [|apply ev_const].
    intros f. cbn [primary app]. now rewrite K.
  - intros t x tok K rest r G V. apply (c_prim t x tok [] EThis); [congruence| |exact V]. apply (ev_S _ (fun _ => PGood EThis rest)); [|apply ev_const].
    intros f. cbn [primary app]. now rewrite K.
  - intros t x o l e c O R H KC rest r G V. apply (c_prim t x o (l ++ [c]) e); [unfold open_par in O; congruence| |exact V]. rewrite <- app_assoc. cbn [app].
    apply (ev_S _ (fun f => pbind (commas ns f true (l ++ c :: rest)) (fun l r1 => need PRPar r1 (fun r2 => PGood (mkparen l) r2)))).
    { intros f. cbn [primary]. unfold open_par in O. now rewrite O. }
    apply ev_bind with (a := [e]) (s := c :: rest); [|apply ev_need; [exact KC|apply ev_const]].
    apply (ev_S _ (fun f => pbind (hier14 ns f true (l ++ c :: rest)) (fun e r => match at_ PComma r with Some r1 => pbind (commas ns f true r1) (fun l r2 => PGood (e :: l) r2) | None => PGood [e] r end))); [reflexivity|].
    apply ev_bind with (a := e) (s := c :: rest); [apply (full12 true l e R); [exact H|now apply (go_p PRPar)]|]. rewrite (at_not PComma PRPar c _ KC) by discriminate. apply ev_const.
  - intros t x o l es c O Q H L KC rest r G V. apply (c_prim t x o (l ++ [c]) (EComma es)); [unfold open_par in O; congruence| |exact V]. rewrite <- app_assoc. cbn [app].
    apply (ev_S _ (fun f => pbind (commas ns f true (l ++ c :: rest)) (fun l r1 => need PRPar r1 (fun r2 => PGood (mkparen l) r2)))).
    { intros f. cbn [primary]. unfold open_par in O. now rewrite O. }
    apply ev_bind with (a := es) (s := c :: rest); [now apply H|]. apply ev_need; [exact KC|]. destruct es as [|e1 [|e2 es]]; cbn in L; try lia. apply ev_const.
  - intros t x o l es b c O Q H KC rest r G V. apply (c_prim t x o (l ++ [c]) (EArray es b)); [congruence| |exact V]. rewrite <- app_assoc. cbn [app].
    apply (ev_S _ (fun f => pbind (braces ns f t (l ++ c :: rest)) (fun le r1 => need PRBrace r1 (fun r2 => PGood (EArray (fst le) (snd le)) r2)))).
    { intros f. cbn [primary]. now rewrite O. }
    apply ev_bind with (a := (es, b)) (s := c :: rest); [now apply H|]. apply ev_need; [exact KC|]. apply ev_const.
  - intros t x s kw lt tok gt o l e c K KL KT KG O R H KC rest r G V. cbn [app]. rewrite <- app_assoc. cbn [app].
    apply (ev_S _ (fun f => pbind (hier14 ns f t (l ++ c :: rest)) (fun e r5 => need PRPar r5 (fun r6 => accesses ns f t x (EView s e) r6)))).
    { intros f. cbn [hier1]. rewrite K. unfold need at 1. rewrite (at_here PLess lt _ KL). rewrite (typename_here t s tok _ KT) by (intros; exact (glued_p PMore gt _ KG)).
      unfold need at 1. rewrite (at_here PMore gt _ KG). unfold need at 1. rewrite (at_here PLPar o _ O). reflexivity. }
    apply ev_bind with (a := e) (s := c :: rest); [apply (full12 t l e R); [exact H|now apply (go_p PRPar)]|]. apply ev_need; [exact KC|exact V].
  - intros t x l e op dot tok s O H KD M KT rest r G V. rewrite <- app_assoc. cbn [app]. apply H; [intros; now apply (glued_p op)|].
    apply (ev_S _ (fun f => accesses ns f t x (EField op e s) rest)); [|exact V].
    intros f. cbn [accesses]. rewrite KD. destruct op; try discriminate M; rewrite (symbol_here t s tok rest KT G); reflexivity.
  - intros t x l e o l2 i c O H KO R HR KC rest r G V. rewrite <- app_assoc. cbn [app]. rewrite <- app_assoc. cbn [app]. apply H; [intros; now apply (glued_p PLBrk)|].
    apply (ev_S _ (fun f => pbind (hier14 ns f t (l2 ++ c :: rest)) (fun i r1 => need PRBrk r1 (fun r2 => accesses ns f t x (EIndex e (Some i)) r2)))).
    { intros f. cbn [accesses]. rewrite KO. rewrite (reads_at ns t 12 l2 i PRBrk (c :: rest) R eq_refl). destruct x; reflexivity. }
    apply ev_bind with (a := i) (s := c :: rest); [apply (full12 t l2 i R); [exact HR|now apply (go_p PRBrk)]|]. apply ev_need; [exact KC|exact V].
  - intros t l e o c O H KO KC rest r G V. rewrite <- app_assoc. cbn [app]. apply H; [intros; now apply (glued_p PLBrk)|].
    apply (ev_S _ (fun f => accesses ns f t true (EIndex e None) rest)); [|exact V]. intros f. cbn [accesses]. rewrite KO. now rewrite (at_here PRBrk c _ KC).
  - intros t x l e o l2 a O H KO A HA rest r G V. rewrite <- app_assoc. cbn [app]. apply H; [intros; now apply (glued_p PLPar)|].
    apply (ev_S _ (fun f => pbind (parse_call ns f t (l2 ++ rest)) (fun l r1 => accesses ns f t x (ECall e l) r1))).
    { intros f. cbn [accesses]. unfold open_par in KO. now rewrite KO. }
    apply ev_bind with (a := a) (s := rest); [apply HA|exact V].
  - intros t rest E. cbn [app]. apply (ev_S _ (fun _ => PGood [] rest)); [|apply ev_const]. intros f. cbn [rel_loop]. now rewrite (nextop_none 7 t rest ns E).
  - intros t op tok l b l2 c K PR R H C HC rest E. cbn [app]. rewrite <- app_assoc.
    apply (ev_S _ (fun f => pbind (hier ns f 6 t (l ++ l2 ++ rest)) (fun b r1 => pbind (rel_loop ns f t r1) (fun l r2 => PGood ((op, b) :: l) r2)))).
    { intros f. cbn [rel_loop]. rewrite (proj2 (nextop_some 7 (tok :: l ++ l2 ++ rest) op (l ++ l2 ++ rest))) by eauto. reflexivity. }
    apply ev_bind with (a := b) (s := l2 ++ rest).
    + apply (proj1 (proj2 H)). inversion C as [|? op2 tok2 ? ? ? ? K2 PR2]; subst; [apply (ends_le t 7); [exact E|lia]|]. cbn [app Par_Spec.ends]. rewrite (goes_prec op2 tok2 t 7 K2 PR2). lia.
    + apply ev_bind with (a := c) (s := rest); [now apply HC|apply ev_const].
  - intros t l e R H c rest KC.
    apply (ev_S _ (fun f => pbind (hier14 ns f t (l ++ c :: rest)) (fun e r => match at_ PComma r with Some r1 => pbind (commas ns f t r1) (fun l r2 => PGood (e :: l) r2) | None => PGood [e] r end))); [reflexivity|].
    apply ev_bind with (a := e) (s := c :: rest); [apply (full12 t l e R); [exact H|now apply (go_p PRPar)]|]. rewrite (at_not PComma PRPar c _ KC) by discriminate. apply ev_const.
  - intros t l e c l2 es R H KC Q HQ d rest KD. rewrite <- app_assoc. cbn [app].
    apply (ev_S _ (fun f => pbind (hier14 ns f t (l ++ c :: l2 ++ d :: rest)) (fun e r => match at_ PComma r with Some r1 => pbind (commas ns f t r1) (fun l r2 => PGood (e :: l) r2) | None => PGood [e] r end))); [reflexivity|].
    apply ev_bind with (a := e) (s := c :: l2 ++ d :: rest); [apply (full12 t l e R); [exact H|now apply (go_p PComma)]|]. rewrite (at_here PComma c _ KC).
    apply ev_bind with (a := es) (s := d :: rest); [now apply HQ|apply ev_const].
  - intros t tok K c rest KC. cbn [app]. apply (ev_S _ (fun _ => PGood ([], true) (c :: rest))); [|apply ev_const]. intros f. cbn [braces]. now rewrite (at_here PEllips tok _ K).
  - intros t l e R H c rest KC.
    apply (ev_S _ (fun f => pbind (hier14 ns f t (l ++ c :: rest)) (fun e r => match at_ PComma r with Some r1 => pbind (braces ns f t r1) (fun le r2 => PGood (e :: fst le, snd le) r2) | None => PGood ([e], false) r end))).
    { intros f. cbn [braces]. now rewrite (reads_at ns t 12 l e PEllips (c :: rest) R eq_refl). }
    apply ev_bind with (a := e) (s := c :: rest); [apply (full12 t l e R); [exact H|now apply (go_p PRBrace)]|]. rewrite (at_not PComma PRBrace c _ KC) by discriminate. apply ev_const.
  - intros t l e c l2 es b R H KC Q HQ d rest KD. rewrite <- app_assoc. cbn [app].
    apply (ev_S _ (fun f => pbind (hier14 ns f t (l ++ c :: l2 ++ d :: rest)) (fun e r => match at_ PComma r with Some r1 => pbind (braces ns f t r1) (fun le r2 => PGood (e :: fst le, snd le) r2) | None => PGood ([e], false) r end))).
    { intros f. cbn [braces]. now rewrite (reads_at ns t 12 l e PEllips (c :: l2 ++ d :: rest) R eq_refl). }
    apply ev_bind with (a := e) (s := c :: l2 ++ d :: rest); [apply (full12 t l e R); [exact H|now apply (go_p PComma)]|]. rewrite (at_here PComma c _ KC).
    apply ev_bind with (a := (es, b)) (s := d :: rest); [now apply HQ|apply ev_const].
  - intros t l e c R H KC rest G. rewrite <- app_assoc. cbn [app].
    apply (ev_S _ (fun f => pbind (hier14 ns f t (l ++ c :: rest)) (fun e r => need PRBrk r (fun r1 => match at_ PLBrk r1 with Some r2 => pbind (dims ns f t r2) (fun l r3 => PGood (e :: l) r3) | None => PGood [e] r1 end)))); [reflexivity|].
    apply ev_bind with (a := e) (s := c :: rest); [apply (full12 t l e R); [exact H|now apply (go_p PRBrk)]|]. apply ev_need; [exact KC|]. rewrite G. apply ev_const.
  - intros t l e c o l2 es R H KC KO D HD rest G. rewrite <- app_assoc. cbn [app].
    apply (ev_S _ (fun f => pbind (hier14 ns f t (l ++ c :: o :: l2 ++ rest)) (fun e r => need PRBrk r (fun r1 => match at_ PLBrk r1 with Some r2 => pbind (dims ns f t r2) (fun l r3 => PGood (e :: l) r3) | None => PGood [e] r1 end)))); [reflexivity|].
    apply ev_bind with (a := e) (s := c :: o :: l2 ++ rest); [apply (full12 t l e R); [exact H|now apply (go_p PRBrk)]|]. apply ev_need; [exact KC|]. rewrite (at_here PLBrk o _ KO).
    apply ev_bind with (a := es) (s := rest); [now apply HD|apply ev_const].
  - intros t c KC rest. cbn [app]. apply (ev_S _ (fun _ => PGood [] rest)); [|apply ev_const]. intros f. cbn [parse_call]. now rewrite (at_here PRPar c _ KC).
  - intros t l a A H rest. destruct (H rest) as (V & N). apply (ev_S _ (fun f => args ns f t false (l ++ rest))); [|exact V]. intros f. cbn [parse_call]. now rewrite N.
  - intros t n n' l a c A H KC rest. rewrite <- app_assoc. cbn [app]. destruct (H c rest (PGood [a] rest)) as (V & N); [left; exact KC|]. split; [|exact N].
    apply V. apply (ev_ext _ (fun _ => PGood [a] rest)); [|apply ev_const]. intros f. unfold more. now rewrite (at_here PRPar c _ KC).
  - intros t n n' l a c l2 as_ A H KC AL HL rest. rewrite <- app_assoc. cbn [app]. destruct (H c (l2 ++ rest) (PGood (a :: as_) rest)) as (V & N); [right; exact KC|]. split; [|exact N].
    apply V. apply (ev_ext _ (fun f => pbind (args ns f t n' (l2 ++ rest)) (fun l r2 => PGood (a :: l) r2))).
    { intros f. unfold more. rewrite (at_not PRPar PComma c _ KC) by discriminate. unfold need. now rewrite (at_here PComma c _ KC). }
    apply ev_bind with (a := as_) (s := rest); [apply HL|apply ev_const].
  - intros t tok K c rest r KC. cbn [app]. split; [|cbn; now rewrite K]. intros V. apply (ev_S _ (fun f => more ns f t false ADefault (c :: rest))); [|exact V].
    intros f. rewrite args_S. rewrite (at_other PDot tok) by congruence. now rewrite K.
  - intros t l e R H c rest r KC. split; [|exact (reads_at ns t 12 l e PRPar (c :: rest) R eq_refl)]. intros V.
    apply (ev_S _ (fun f => pbind (hier14 ns f t (l ++ c :: rest)) (fun e r1 => more ns f t false (AExpr e) r1))).
    { intros f. rewrite args_S. rewrite (reads_at ns t 12 l e PDot (c :: rest) R eq_refl). destruct (reads_head ns _ _ _ _ R) as (tok & l' & -> & SB). cbn [app].
      destruct (kind tok); try reflexivity. discriminate SB. }
    apply ev_bind with (a := e) (s := c :: rest); [|exact V]. apply (full12 t l e R); [exact H|]. destruct KC as [KC|KC]; [now apply (go_p PRPar)|now apply (go_p PComma)].
  - intros t n d tok eq l s e KD KT KE R H c rest r KC. cbn [app]. split; [|now apply (at_not PRPar PDot)]. intros V.
    apply (ev_S _ (fun f => pbind (hier14 ns f t (l ++ c :: rest)) (fun e r4 => more ns f t true (ANamed s e) r4))).
    { intros f. rewrite args_S. rewrite (at_here PDot d _ KD). rewrite (symbol_here t s tok _ KT) by (intros; now apply (glued_p (PAsg ASet))). unfold need at 1. rewrite (at_here (PAsg ASet) eq _ KE).
      destruct (reads_head ns _ _ _ _ R) as (tok' & l' & -> & SB). cbn [app]. destruct (kind tok'); try reflexivity. discriminate SB. }
    apply ev_bind with (a := e) (s := c :: rest); [|exact V]. apply (full12 t l e R); [exact H|]. destruct KC as [KC|KC]; [now apply (go_p PRPar)|now apply (go_p PComma)].
  - intros t n d tok eq u s KD KT KE KU c rest r KC. cbn [app]. split; [|now apply (at_not PRPar PDot)]. intros V.
    apply (ev_S _ (fun f => more ns f t true ADefault (c :: rest))); [|exact V].
    intros f. rewrite args_S. rewrite (at_here PDot d _ KD). rewrite (symbol_here t s tok _ KT) by (intros; now apply (glued_p (PAsg ASet))). unfold need at 1. rewrite (at_here (PAsg ASet) eq _ KE).
    now rewrite KU.
Qed.
Lemma parse_complete t l e rest : reads ns t 12 l e -> ends t 12 rest -> ev (fun f => hier14 ns f t (l ++ rest)) (PGood e rest).
Proof. intros R E. exact (proj1 (proj2 (proj1 complete t 12%nat l e R)) rest E). Qed.
End Complete.
