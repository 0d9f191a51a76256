(* The parser as a whole function: enough fuel, both directions, no ambiguity.  C47. *)
From Verif Require Import Base Par_Model Par_Spec Par_Proofs Par_Complete.
From Coq Require Import Lia.

(* ---- More fuel changes nothing ---- *)
Definition grows {A} (m m' : pres A) : Prop := m = PFuel \/ m = m'.
Lemma grows_refl {A} (m : pres A) : grows m m. Proof. now right. Qed.
Lemma grows_bind {A B} (m m' : pres A) (k k' : A -> list token -> pres B) :
  grows m m' -> (forall a r, grows (k a r) (k' a r)) -> grows (pbind m k) (pbind m' k').
Proof. intros [-> | ->] H; [now left|]. destruct m' as [a r| |]; cbn; [apply H|now right|now left]. Qed.
Lemma grows_need {A} p ts (k k' : list token -> pres A) : (forall r, grows (k r) (k' r)) -> grows (need p ts k) (need p ts k').
Proof. intros H. unfold need. destruct (at_ p ts); [apply H|now right]. Qed.
Lemma grows_closing {A} n : forall ts (k k' : list token -> pres A), (forall r, grows (k r) (k' r)) -> grows (closing n ts k) (closing n ts k').
Proof. induction n as [|n IH]; intros ts k k' H; cbn [closing]; [apply H|]. apply grows_need. intros r. now apply IH. Qed.

Section Whole.
Variable ns : bool.
Definition M f f' :=
  (forall t ts, grows (hier14 ns f t ts) (hier14 ns f' t ts)) /\ (forall t ts, grows (hier13 ns f t ts) (hier13 ns f' t ts)) /\
  (forall k t ts, grows (hier ns f k t ts) (hier ns f' k t ts)) /\ (forall k t a ts, grows (bin_loop ns f k t a ts) (bin_loop ns f' k t a ts)) /\
  (forall t ts, grows (rel_loop ns f t ts) (rel_loop ns f' t ts)) /\ (forall t ts, grows (hier2 ns f t ts) (hier2 ns f' t ts)) /\
  (forall t x ts, grows (hier1 ns f t x ts) (hier1 ns f' t x ts)) /\ (forall t x b ts, grows (accesses ns f t x b ts) (accesses ns f' t x b ts)) /\
  (forall t ts, grows (primary ns f t ts) (primary ns f' t ts)) /\ (forall t ts, grows (commas ns f t ts) (commas ns f' t ts)) /\
  (forall t ts, grows (braces ns f t ts) (braces ns f' t ts)) /\ (forall t ts, grows (dims ns f t ts) (dims ns f' t ts)) /\
  (forall t ts, grows (parse_call ns f t ts) (parse_call ns f' t ts)) /\ (forall t n ts, grows (args ns f t n ts) (args ns f' t n ts)).
Lemma more_grows f f' t n a ts : (forall t n ts, grows (args ns f t n ts) (args ns f' t n ts)) -> grows (more ns f t n a ts) (more ns f' t n a ts).
Proof.
  intros I. unfold more. destruct (at_ PRPar ts); [apply grows_refl|]. apply grows_need. intros r. apply grows_bind; [apply I|].
  intros l r2. apply grows_refl.
Qed.
Ltac g :=
  repeat first
  [ apply grows_refl
  | match goal with H : forall _, _ |- _ => apply H end
  | apply more_grows; assumption
  | apply grows_bind; intros
  | apply grows_need; intros
  | apply grows_closing; intros
  | match goal with |- grows (match ?x with _ => _ end) (match ?x with _ => _ end) => destruct x end
  | match goal with |- grows (if ?x then _ else _) (if ?x then _ else _) => destruct x end ].
Lemma grow_step f f' : M f f' -> M (S f) (S f').
Proof.
  intros (I14 & I13 & Ih & Ibl & Irl & I2 & I1 & Iac & Ipr & Ico & Ibr & Idi & Ipc & Iar).
  unfold M. repeat split; intros.
  - cbn [hier14]. g.
  - cbn [hier13]. g.
  - cbn [hier]. g.
  - cbn [bin_loop]. g.
  - cbn [rel_loop]. g.
  - cbn [hier2]. g.
  - cbn [hier1]. g.
  - cbn [accesses]. g.
  - cbn [primary]. g.
  - cbn [commas]. g.
  - cbn [braces]. g.
  - cbn [dims]. g.
  - cbn [parse_call]. g.
  - rewrite !args_S. g.
Qed.
Lemma all_grow f f' : (f <= f')%nat -> M f f'.
Proof.
  revert f'. induction f as [|f IH]; intros f' L; [unfold M; repeat split; intros; now left|]. destruct f' as [|f']; [lia|]. apply grow_step, IH. lia.
Qed.
Lemma hier14_grows f f' t ts : (f <= f')%nat -> hier14 ns f t ts <> PFuel -> hier14 ns f' t ts = hier14 ns f t ts.
Proof. intros L N. destruct (proj1 (all_grow f f' L) t ts) as [H|H]; [contradiction|now symmetry]. Qed.

(* ---- Enough fuel ---- *)
Lemma nf_bind {A B} (m : pres A) (k : A -> list token -> pres B) : m <> PFuel -> (forall a r, m = PGood a r -> k a r <> PFuel) -> pbind m k <> PFuel.
Proof. destruct m as [a r| |]; intros N H; [now apply H|discriminate|contradiction]. Qed.
Lemma nf_need {A} p ts (k : list token -> pres A) : (forall r, length ts = S (length r) -> k r <> PFuel) -> need p ts k <> PFuel.
Proof. intros H. unfold need. destruct (at_ p ts) as [r|] eqn:E; [|discriminate]. apply at_some in E. destruct E as (t & _ & ->). now apply H. Qed.
Lemma nf_closing {A} n : forall ts (k : list token -> pres A), (forall r, k r <> PFuel) -> closing n ts k <> PFuel.
Proof. induction n as [|n IH]; intros ts k H; cbn [closing]; [apply H|]. apply nf_need. intros r _. now apply IH. Qed.
Lemma strip_len ts n r : strip ts = (n, r) -> (length r <= length ts)%nat.
Proof. intros H. apply strip_eq in H. destruct H as (o & _ & _ & -> & _). rewrite app_length. lia. Qed.
Lemma at_len p ts r : at_ p ts = Some r -> length ts = S (length r).
Proof. intros H. apply at_some in H. destruct H as (t & _ & ->). reflexivity. Qed.
Lemma sym_len t ts s r : symbol t ts = Some (s, r) -> length ts = S (length r).
Proof. intros H. apply symbol_some in H. destruct H as (tok & _ & ->). reflexivity. Qed.
Lemma ty_len t ts s r : typename t ts = Some (s, r) -> length ts = S (length r).
Proof. intros H. apply typename_some in H. destruct H as (tok & _ & ->). reflexivity. Qed.
Lemma next_len k ts s r : nextop (list_of k) ts = Some (s, r) -> length ts = S (length r).
Proof. intros H. apply nextop_some in H. destruct H as (tok & _ & _ & ->). reflexivity. Qed.
Lemma glued_len ts r : glued ts = Some r -> length ts = S (length r).
Proof. intros H. apply glued_some in H. destruct H as (tok & _ & ->). reflexivity. Qed.
Lemma reads_len t k l e r : reads ns t k l e -> (length r < length (l ++ r))%nat.
Proof. intros R. destruct (reads_head ns _ _ _ _ R) as (tok & l' & -> & _). cbn. rewrite app_length. lia. Qed.
Lemma operand_len t x l e r : operand ns t x l e -> (length r < length (l ++ r))%nat.
Proof. intros R. destruct (operand_head ns _ _ _ _ R) as (tok & l' & -> & _). cbn. rewrite app_length. lia. Qed.
Lemma len14 f t ts e r : hier14 ns f t ts = PGood e r -> (length r < length ts)%nat.
Proof. intros H. apply (proj1 (all_sound ns f)) in H. destruct H as (l & -> & R). exact (reads_len _ _ _ _ _ R). Qed.
Lemma len13 f t ts e r : hier13 ns f t ts = PGood e r -> (length r < length ts)%nat.
Proof. intros H. apply (proj1 (proj2 (all_sound ns f))) in H. destruct H as (l & -> & R). exact (reads_len _ _ _ _ _ R). Qed.
Lemma lenh f k t ts e r : (k <= 10)%nat -> hier ns f k t ts = PGood e r -> (length r < length ts)%nat.
Proof. intros L H. apply (proj1 (proj2 (proj2 (all_sound ns f)))) in H; [|exact L]. destruct H as (l & -> & R). exact (reads_len _ _ _ _ _ R). Qed.
Lemma lenpr f t ts e r : primary ns f t ts = PGood e r -> (length r < length ts)%nat.
Proof.
  intros H. destruct (all_sound ns f) as (_ & _ & _ & _ & _ & _ & _ & _ & P & _). apply (P t false) in H. destruct H as (l & -> & R). exact (operand_len _ _ _ _ _ R).
Qed.
Lemma len1 f t x ts e r : hier1 ns f t x ts = PGood e r -> (length r < length ts)%nat.
Proof.
  intros H. destruct (all_sound ns f) as (_ & _ & _ & _ & _ & _ & P & _). apply P in H. destruct H as (l & -> & R). exact (operand_len _ _ _ _ _ R).
Qed.
Lemma lenpc f t ts e r : parse_call ns f t ts = PGood e r -> (length r <= length ts)%nat.
Proof.
  intros H. destruct (all_sound ns f) as (_ & _ & _ & _ & _ & _ & _ & _ & _ & _ & _ & _ & P & _). apply P in H. destruct H as (l & -> & R). rewrite app_length. lia.
Qed.

Notation sz ts := (20 * length ts)%nat.
Definition N f :=
  (forall t ts, (sz ts + 15 < f)%nat -> hier14 ns f t ts <> PFuel) /\ (forall t ts, (sz ts + 14 < f)%nat -> hier13 ns f t ts <> PFuel) /\
  (forall k t ts, (k <= 10)%nat -> (sz ts + 3 + k < f)%nat -> hier ns f k t ts <> PFuel) /\
  (forall k t a ts, (k <= 10)%nat -> (sz ts < f)%nat -> bin_loop ns f k t a ts <> PFuel) /\
  (forall t ts, (sz ts < f)%nat -> rel_loop ns f t ts <> PFuel) /\ (forall t ts, (sz ts + 2 < f)%nat -> hier2 ns f t ts <> PFuel) /\
  (forall t x ts, (sz ts + 1 < f)%nat -> hier1 ns f t x ts <> PFuel) /\ (forall t x b ts, (sz ts < f)%nat -> accesses ns f t x b ts <> PFuel) /\
  (forall t ts, (sz ts < f)%nat -> primary ns f t ts <> PFuel) /\ (forall t ts, (sz ts + 16 < f)%nat -> commas ns f t ts <> PFuel) /\
  (forall t ts, (sz ts + 16 < f)%nat -> braces ns f t ts <> PFuel) /\ (forall t ts, (sz ts + 16 < f)%nat -> dims ns f t ts <> PFuel) /\
  (forall t ts, (sz ts + 18 < f)%nat -> parse_call ns f t ts <> PFuel) /\ (forall t n ts, (sz ts + 17 < f)%nat -> args ns f t n ts <> PFuel).
Lemma postfix_nf e ts : postfix ns e ts <> PFuel.
Proof. destruct ts as [|t ts]; [discriminate|]. cbn. destruct (negb ns && bol t); [discriminate|]. destruct (kind t) as [| | | | | | | |p| |]; try discriminate. destruct p; discriminate. Qed.
Lemma if_len {A} (b : bool) (x : option A) y : (if b then x else None) = Some y -> x = Some y.
Proof. destruct b; [auto|discriminate]. Qed.
Ltac lens := repeat match goal with
  | H : hier14 _ _ _ _ = PGood _ _ |- _ => apply len14 in H
  | H : hier13 _ _ _ _ = PGood _ _ |- _ => apply len13 in H
  | H : hier _ _ _ _ _ = PGood _ _ |- _ => apply lenh in H; [|lia]
  | H : primary _ _ _ _ = PGood _ _ |- _ => apply lenpr in H
  | H : hier1 _ _ _ _ _ = PGood _ _ |- _ => apply len1 in H
  | H : parse_call _ _ _ _ = PGood _ _ |- _ => apply lenpc in H
  | H : at_ _ _ = Some _ |- _ => apply at_len in H
  | H : symbol _ _ = Some (_, _) |- _ => apply sym_len in H
  | H : typename _ _ = Some (_, _) |- _ => apply ty_len in H
  | H : nextop (list_of _) _ = Some (_, _) |- _ => apply next_len in H
  | H : (if _ then _ else None) = Some _ |- _ => apply if_len in H
  | H : glued _ = Some _ |- _ => apply glued_len in H
  | H : strip _ = (_, _) |- _ => apply strip_len in H
  end; cbn [length] in *.
Ltac fin := lens; lia.
Lemma more_nf f t m a ts : (forall t n ts, (sz ts + 17 < f)%nat -> args ns f t n ts <> PFuel) -> (sz ts < f)%nat -> more ns f t m a ts <> PFuel.
Proof. intros I L. unfold more. destruct (at_ PRPar ts) eqn:?; [discriminate|]. apply nf_need. intros r H. apply nf_bind; [apply I; lia|discriminate]. Qed.
Ltac n :=
  repeat first
  [ discriminate
  | apply postfix_nf
  | apply more_nf; [assumption|fin]
  | match goal with H : forall _, _ |- _ => apply H; fin end
  | apply nf_bind; [|intros ? ? ?]
  | apply nf_need; intros ? ?
  | apply nf_closing; intros ?
  | match goal with |- match ?x with _ => _ end <> PFuel => destruct x eqn:? end ].
Ltac fold_all := fold (hier14 ns) (hier13 ns) (hier ns) (bin_loop ns) (rel_loop ns) (hier2 ns) (hier1 ns) (accesses ns) (primary ns) (commas ns) (braces ns) (dims ns) (parse_call ns) (args ns).
Lemma enough f : N f.
Proof.
  induction f as [|f (I14 & I13 & Ih & Ibl & Irl & I2 & I1 & Iac & Ipr & Ico & Ibr & Idi & Ipc & Iar)]; [unfold N; repeat split; intros; lia|].
  unfold N. repeat split; intros.
  - cbn [hier14]. fold_all. n.
  - cbn [hier13]. fold_all. n.
  - cbn [hier]. fold_all. n.
  - cbn [bin_loop]. fold_all. n.
  - cbn [rel_loop]. fold_all. n.
  - cbn [hier2]. fold_all. n.
  - cbn [hier1]. fold_all. n.
  - cbn [accesses]. fold_all. n.
  - cbn [primary]. fold_all. n.
  - cbn [commas]. fold_all. n.
  - cbn [braces]. fold_all. n.
  - cbn [dims]. fold_all. n.
  - cbn [parse_call]. fold_all. n.
  - rewrite args_S. n.
Qed.

Lemma expression_total t ts : expression ns t ts <> PFuel.
Proof. unfold expression. apply (proj1 (enough (20 * length ts + 16))). lia. Qed.
Lemma expression_sound t ts e rest : expression ns t ts = PGood e rest -> exists l, ts = l ++ rest /\ reads ns t 12 l e.
Proof. apply parse_sound. Qed.
Lemma expression_complete t l e rest : reads ns t 12 l e -> ends ns t 12 rest -> expression ns t (l ++ rest) = PGood e rest.
Proof.
  intros R E. destruct (parse_complete ns t l e rest R E) as (n & H). unfold expression.
  pose proof (expression_total t (l ++ rest)) as T. unfold expression in T. set (f := (20 * length (l ++ rest) + 16)%nat) in *.
  rewrite <- (H (f + n)%nat) by lia. symmetry. apply hier14_grows; [lia|exact T].
Qed.
Lemma expression_iff t l e c rest : goes_on ns t c = None -> expression ns t (l ++ c :: rest) = PGood e (c :: rest) <-> reads ns t 12 l e.
Proof.
  intros G. split.
  - intros H. apply expression_sound in H. destruct H as (l' & E & R). apply app_inv_tail in E. now subst.
  - intros R. apply expression_complete; [exact R|]. now apply ends_none.
Qed.
Lemma unambiguous t l a b : reads ns t 12 l a -> reads ns t 12 l b -> a = b.
Proof.
  intros A B. assert (E : ends ns t 12 []) by exact I. pose proof (expression_complete t l a [] A E) as HA. pose proof (expression_complete t l b [] B E) as HB. congruence.
Qed.

(* ---- Two operators in a row ---- *)
Definition join (op : punct) (a b : expr) : expr := match op with PAnd | POr => ELogic op a b | _ => EBin op a b end.
Lemma prec_range op k : prec op = Some k -> (1 <= k <= 10)%nat.
Proof. destruct op; intros H; try discriminate H; injection H as <-; lia. Qed.
Lemma two t k op tok l1 a l2 b : kind tok = P op -> prec op = Some k -> (k <> 7 -> reads ns t k l1 a)%nat -> (k = 7 -> reads ns t 6 l1 a)%nat -> reads ns t (pred k) l2 b ->
  reads ns t k (l1 ++ tok :: l2) (join op a b).
Proof.
  intros K PR R1 R1' R2. pose proof (prec_range op k PR) as B. destruct k as [|k]; [lia|]. cbn [pred] in R2. destruct (Nat.eq_dec (S k) 7) as [E|E].
  - injection E as ->. replace (join op a b) with (EBin op a b) by (destruct op; try discriminate PR; reflexivity). apply r_compare; auto.
  - now apply r_binary; auto.
Qed.
Lemma two_ops t op1 op2 p1 p2 k1 k2 la a lb b lc c rest : prec op1 = Some p1 -> prec op2 = Some p2 -> kind k1 = P op1 -> kind k2 = P op2 ->
  reads ns t 0 la a -> reads ns t 0 lb b -> reads ns t 0 lc c -> ends ns t 12 rest ->
  expression ns t ((la ++ k1 :: lb ++ k2 :: lc) ++ rest) =
    PGood (if (p1 =? 7)%nat && (p2 =? 7)%nat then EChain a [(op1, b); (op2, c)]
           else if (p1 <=? p2)%nat then join op2 (join op1 a b) c else join op1 a (join op2 b c)) rest.
Proof.
  intros P1 P2 K1 K2 A B C E. pose proof (prec_range op1 p1 P1) as B1. pose proof (prec_range op2 p2 P2) as B2.
  apply expression_complete; [|exact E].
  destruct ((p1 =? 7)%nat && (p2 =? 7)%nat) eqn:S7.
  - apply andb_prop in S7. destruct S7 as [E1 E2]. apply Nat.eqb_eq in E1, E2. subst.
    apply (up ns t _ _ 7); [|lia]. apply r_chain; [now apply (up ns t _ _ 0); [|lia]| |cbn; lia].
    replace (k1 :: lb ++ k2 :: lc) with (k1 :: lb ++ (k2 :: lc ++ [])) by now rewrite app_nil_r.
    apply c_cons; auto; [apply (up ns t _ _ 0); [auto|lia]|]. apply c_cons; auto; [apply (up ns t _ _ 0); [auto|lia]|constructor].
  - destruct (p1 <=? p2)%nat eqn:L.
    + apply Nat.leb_le in L. assert (D : (p1 < p2 \/ p1 = p2 /\ p2 <> 7)%nat).
      { destruct (Nat.eq_dec p1 p2) as [-> |NE]; [right|left; lia]. split; [reflexivity|]. intros ->. discriminate S7. }
      replace (la ++ k1 :: lb ++ k2 :: lc) with ((la ++ k1 :: lb) ++ k2 :: lc) by (rewrite <- app_assoc; reflexivity).
      assert (R1 : reads ns t p1 (la ++ k1 :: lb) (join op1 a b)).
      { apply two; auto; intros; (apply (up ns t _ _ 0); [auto|lia]). }
      apply (up ns t _ _ p2); [|lia]. apply two; auto.
      * intros _. apply (up ns t _ _ p1); [exact R1|lia].
      * intros ->. apply (up ns t _ _ p1); [exact R1|lia].
      * apply (up ns t _ _ 0); [auto|lia].
    + apply Nat.leb_gt in L. apply (up ns t _ _ p1); [|lia]. apply two; auto.
      * intros _. apply (up ns t _ _ 0); [auto|lia].
      * intros _. apply (up ns t _ _ 0); [auto|lia].
      * apply (up ns t _ _ p2); [|lia]. apply two; auto; intros; (apply (up ns t _ _ 0); [auto|lia]).
Qed.
Lemma assign_right t o1 o2 k1 k2 la a lb b lc c rest : kind k1 = P (PAsg o1) -> kind k2 = P (PAsg o2) ->
  reads ns t 0 la a -> reads ns t 0 lb b -> reads ns t 0 lc c -> ends ns t 12 rest ->
  expression ns t ((la ++ k1 :: lb ++ k2 :: lc) ++ rest) = PGood (EAssign o1 a (EAssign o2 b c)) rest.
Proof.
  intros K1 K2 A B C E. apply expression_complete; [|exact E]. apply r_assign; auto; [apply (up ns t _ _ 0); [auto|lia]|].
  apply r_assign; auto; (apply (up ns t _ _ 0); [auto|lia]).
Qed.
Lemma ternary_right t q1 q2 c1 c2 g1 g2 la a lb b lc c ld d le e rest : kind q1 = P PQuestion -> kind q2 = P PQuestion -> kind c1 = Colon g1 -> kind c2 = Colon g2 ->
  reads ns t 0 la a -> reads ns false 0 lb b -> reads ns t 0 lc c -> reads ns false 0 ld d -> reads ns t 0 le e -> ends ns t 12 rest ->
  expression ns t ((la ++ q1 :: lb ++ c1 :: lc ++ q2 :: ld ++ c2 :: le) ++ rest) = PGood (ETernary a b (ETernary c d e)) rest.
Proof.
  intros K1 K2 KC1 KC2 A B C D F E. apply expression_complete; [|exact E]. apply r_up; [|lia].
  apply (r_ternary ns t q1 c1 g1); auto; [apply (up ns _ _ _ 0); [auto|lia]|apply (up ns _ _ _ 0); [auto|lia]|].
  apply (r_ternary ns t q2 c2 g2); auto; (apply (up ns _ _ _ 0); [auto|lia]).
Qed.
End Whole.
