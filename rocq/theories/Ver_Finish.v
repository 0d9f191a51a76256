(* The verifier finishes and, for code with heap scopes, only reads the code. *)
From Verif Require Import Base Base_Proofs Rtti_Model Rt_Model Array_Model Interp_Model Cfg_Model Cfg_Spec Cfg_Proofs Dom_Model Dom_Spec Dom_Proofs Dom_Build Ver_Model Ver_Spec Ver_Proofs.
From Coq Require Import ZifyBool.
Ltac Zify.zify_post_hook ::= Z.div_mod_to_equations.

(* A result that is neither an endless loop nor, if [b], a bad memory access. *)
Definition calm {A} (b : bool) (r : cres A) : Prop := r <> CLoop /\ (b = true -> r <> CUndef UBMem).

Lemma calm_good {A} b (a : A) : calm b (CGood a). Proof. split; discriminate. Qed.
Lemma calm_bad {A} b e : calm b (@CBad A e). Proof. split; discriminate. Qed.
Lemma calm_assert {A} b : calm b (@CUndef A UBAssert). Proof. split; discriminate. Qed.
Lemma calm_bind {A B} b (r : cres A) (k : A -> cres B) : calm b r -> (forall a, r = CGood a -> calm b (k a)) -> calm b (cbind r k).
Proof.
  intros (H1 & H2) K. destruct r as [a|e|u|]; cbn [cbind].
  - apply K. reflexivity.
  - apply calm_bad.
  - split; [discriminate|]. intros E F. apply (H2 E). congruence.
  - contradiction.
Qed.
Lemma calm_weaken {A} b (r : cres A) : calm true r -> calm b r.
Proof. intros (H1 & H2). split; [exact H1|]. intros _. apply H2. reflexivity. Qed.

(* --- One instruction --- *)
Lemma push_stack_calm n x : calm true (push_stack n x).
Proof. destruct x. unfold push_stack. cbv zeta. destruct (two32 <=? _); [apply calm_bad|]. destruct (INT_MAX4 <? _); [apply calm_bad|apply calm_good]. Qed.
Lemma pop_stack_calm n x : calm true (pop_stack n x).
Proof. destruct x. unfold pop_stack. destruct (_ <? _); [apply calm_bad|apply calm_good]. Qed.
Lemma check_calm b e x : calm true (check b e x).
Proof. unfold check. destruct b; [apply calm_good|apply calm_bad]. Qed.
Lemma push_heap_calm n d : calm true (push_heap n d).
Proof. unfold push_heap. destruct (_ || _); [apply calm_bad|]. destruct (vd_heap d); [apply calm_good|]. destruct (_ =? _); apply calm_good. Qed.
Lemma pop_heap_calm n d : calm true (pop_heap n d).
Proof. unfold pop_heap. destruct (vd_heap d); [apply calm_bad|]. destruct (_ || _); [apply calm_bad|]. destruct (_ =? _); apply calm_good. Qed.

Lemma verify_op_calm env args sizes prev i x : calm true (verify_op env args sizes prev i x).
Proof.
  destruct x as (d & mx).
  destruct i; cbn [verify_op]; try apply calm_good; try apply calm_bad; try apply check_calm; try apply push_stack_calm; try apply pop_stack_calm.
  all: repeat first
    [ apply calm_good | apply calm_bad | apply check_calm | apply push_stack_calm | apply pop_stack_calm | apply push_heap_calm | apply pop_heap_calm
    | apply calm_bind; [|intros]
    | match goal with |- calm _ (if ?c then _ else _) => destruct c end
    | match goal with |- calm _ (match ?c with _ => _ end) => destruct c end ].
Qed.

(* --- Order and dominators --- *)
Section Order.
Variable entry : Z.
Variable succ : Z -> list Z.
Variable an : analysis.
Hypothesis AN : analysed entry succ an.
Notation id := (id_of (an_rpo an)).
Notation reach := (reachable entry succ).

Lemma before_lt a b : before (an_rpo an) a b -> id a < id b.
Proof.
  intros (l1 & l2 & l3 & E). pose proof (as_once _ _ _ AN) as ND. rewrite E in *.
  assert (NI : ~ In b (l1 ++ [a])).
  { replace (l1 ++ a :: l2 ++ b :: l3) with ((l1 ++ [a]) ++ l2 ++ b :: l3) in ND by (rewrite <- app_assoc; reflexivity).
    intro H. revert ND H. generalize (l1 ++ [a]). intro l. induction l as [|x l IH]; intros ND H; [destruct H|].
    cbn [app] in ND. inversion ND as [|? ? NI ND']; subst. destruct H as [->|H]; [|exact (IH ND' H)].
    apply NI. apply in_or_app. right. apply in_or_app. right. left. reflexivity. }
  replace (l1 ++ a :: l2 ++ b :: l3) with ((l1 ++ [a]) ++ l2 ++ b :: l3) by (rewrite <- app_assoc; reflexivity).
  destruct (Ver_Proofs.id_app (l1 ++ [a]) (l2 ++ b :: l3) a) as (I1 & _).
  destruct (Ver_Proofs.id_app (l1 ++ [a]) (l2 ++ b :: l3) b) as (_ & I2).
  specialize (I2 NI ltac:(apply in_or_app; right; left; reflexivity)).
  destruct (I1 ltac:(apply in_or_app; right; left; reflexivity)) as (I3 & I4). lia.
Qed.

(* A path along which the positions grow. *)
Inductive climb : list Z -> Z -> Prop :=
| climb_entry : climb [entry] entry
| climb_step l b c : climb l b -> In c (succ b) -> id b < id c -> climb (c :: l) c.

Lemma climb_path l b : climb l b -> path entry succ l b.
Proof. induction 1 as [|l b c C IH S L]; [constructor|econstructor; eassumption]. Qed.

Lemma climb_le l b : climb l b -> forall x, In x l -> x = b \/ id x < id b.
Proof.
  induction 1 as [|l b c C IH S L]; intros x X.
  - destruct X as [<- |[]]. left. reflexivity.
  - destruct X as [<- |X]; [left; reflexivity|]. right. destruct (IH x X) as [->|H]; lia.
Qed.

Lemma climb_part l b : climb l b -> forall x, In x l -> exists l', climb l' x.
Proof.
  induction 1 as [|l b c C IH S L]; intros x X.
  - destruct X as [<- |[]]. eexists. constructor.
  - destruct X as [<- |X]; [exists (c :: l); econstructor; eassumption|exact (IH x X)].
Qed.

Lemma climb_reach b : reach b -> exists l, climb l b.
Proof.
  intros (l & P). induction P as [|l p c P IH S]; [eexists; constructor|].
  destruct IH as (l' & C). assert (RP : reach p) by (exists l; exact P).
  assert (RC : reach c) by (exists (c :: l); econstructor; eassumption).
  destruct (dominates (an_order an) (an_num an) c p) eqn:D.
  - apply (as_dominates _ _ _ AN c p RC RP) in D. destruct D as (_ & D). exact (climb_part _ _ C c (D _ (climb_path _ _ C))).
  - exists (c :: l'). apply (climb_step l' p c C S). apply before_lt. apply (as_order _ _ _ AN p c RP S).
    intros (_ & B). apply (as_dominates _ _ _ AN c p RC RP) in B. congruence.
Qed.

Lemma sdom_lt d b : doms entry succ d b -> d <> b -> id d < id b.
Proof.
  intros (R & D) N. destruct (climb_reach b R) as (l & C). destruct (climb_le _ _ C d (D _ (climb_path _ _ C))) as [E|E]; [contradiction|exact E].
Qed.

Lemma lower_pred b : reach b -> b <> entry -> exists p, reach p /\ In b (succ p) /\ id p < id b.
Proof.
  intros R N. destruct (climb_reach b R) as (l & C). destruct C as [|l p b C S L]; [contradiction|].
  exists p. split; [exists l; exact (climb_path _ _ C)|]. split; assumption.
Qed.

Lemma doms_reach d b : doms entry succ d b -> reach d.
Proof.
  intros (R & D). destruct R as (l & P). assert (X := D l P).
  clear D. induction P as [|l p c P IH S].
  - destruct X as [<- |[]]. eexists. constructor.
  - destruct X as [<- |X]; [exists (c :: l); econstructor; eassumption|exact (IH X)].
Qed.
End Order.

(* --- DetectCompilerBreakBug --- *)
Section Bug.
Variable strict : bool.
Variable entry : Z.
Variable g : graph.
Variable an : analysis.
Hypothesis AN : analysed entry (g_succ g) an.
Hypothesis NE : g_pred g entry = [].
Notation id := (id_of (an_rpo an)).
Notation preds := (g_pred g).
Notation reach := (reachable entry (g_succ g)).
Hypothesis PRE : forall b p, In p (preds b) -> reach p.

Lemma up_to_header_calm fuel : forall b, reach b -> (Z.to_nat (id b) < fuel)%nat ->
  calm true (up_to_header g an fuel b) /\ forall d, up_to_header g an fuel b = CGood d -> reach d.
Proof.
  induction fuel as [|f IH]; intros b R L; [lia|]. cbn [up_to_header].
  destruct (mem_z b (an_headers an)); [split; [apply calm_good|intros d E; congruence]|].
  destruct (preds b) as [|p ps] eqn:P; [split; [apply calm_good|intros d E; congruence]|].
  assert (N : b <> entry) by congruence. destruct (as_idom _ _ _ AN b R N) as (d & E & D1 & D2 & _). rewrite E.
  pose proof (sdom_lt _ _ _ AN d b D2 D1). pose proof (proj1 (id_pos _ _) (proj2 (as_all _ _ _ AN d) (doms_reach _ _ d b D2))).
  apply IH; [exact (doms_reach _ _ d b D2)|lia].
Qed.

(* The blocks not yet visited. *)
Definition unvisited (v : list Z) : nat := length (filter (fun b => negb (mem_z b v)) (an_rpo an)).

Lemma unvisited_add v p : In p (an_rpo an) -> mem_z p v = false -> (S (unvisited (p :: v)) = unvisited v)%nat.
Proof.
  unfold unvisited. intros I M. pose proof (as_once _ _ _ AN) as ND. revert I ND. generalize (an_rpo an). intro l.
  induction l as [|b l IH]; intros I ND; [destruct I|]. inversion ND as [|? ? NI ND']; subst. cbn [filter].
  destruct (Z.eq_dec b p) as [->|N].
  - assert (E1 : mem_z p (p :: v) = true) by (unfold mem_z; cbn [existsb]; rewrite Z.eqb_refl; reflexivity). rewrite E1, M. cbn [negb length].
    f_equal. f_equal. apply filter_ext_in. intros c C. f_equal. unfold mem_z. cbn [existsb]. destruct (Z.eqb_spec c p) as [->|]; [contradiction|reflexivity].
  - destruct I as [I|I]; [contradiction|]. assert (E1 : mem_z b (p :: v) = mem_z b v) by (unfold mem_z; cbn [existsb]; destruct (Z.eqb_spec b p); [contradiction|reflexivity]).
    rewrite E1. destruct (negb (mem_z b v)); cbn [length]; rewrite <- (IH I ND'); reflexivity.
Qed.

Lemma visit_preds_calm dom ps : forall w v, (forall p, In p ps -> In p (an_rpo an)) -> calm true (visit_preds strict an dom ps w v) /\
  forall w' v', visit_preds strict an dom ps w v = CGood (w', v') -> (length w' + unvisited v' = length w + unvisited v)%nat.
Proof.
  induction ps as [|p ps IH]; intros w v HP; cbn [visit_preds].
  - split; [apply calm_good|]. intros w' v' E. assert (w' = w /\ v' = v) as (-> & ->) by (split; congruence). reflexivity.
  - assert (HP' : forall q, In q ps -> In q (an_rpo an)) by (intros; apply HP; right; assumption).
    destruct (mem_z p v) eqn:M; cbn [orb]; [exact (IH w v HP')|]. destruct (id p <? id dom); [exact (IH w v HP')|].
    destruct (strict && _); [split; [apply calm_assert|discriminate]|].
    destruct (IH (p :: w) (p :: v) HP') as (C & E). split; [exact C|]. intros w' v' H. rewrite (E _ _ H).
    pose proof (unvisited_add v p (HP p (or_introl eq_refl)) M). cbn [length]. lia.
Qed.

Lemma loop_blocks_calm dom fuel : forall w v, (length w + unvisited v < fuel)%nat -> calm true (loop_blocks strict g an fuel dom w v).
Proof.
  induction fuel as [|f IH]; intros w v L; [lia|]. cbn [loop_blocks]. destruct w as [|b w]; [apply calm_good|].
  destruct (visit_preds_calm dom (preds b) w v) as (C & E).
  { intros p P. apply (as_all _ _ _ AN). exact (PRE b p P). }
  apply calm_bind; [exact C|]. intros (w' & v') H. cbn [fst snd]. apply IH. rewrite (E _ _ H). cbn [length] in L. lia.
Qed.

Lemma filter_len {A} (f : A -> bool) l : (length (filter f l) <= length l)%nat.
Proof. induction l as [|a l IH]; cbn [filter length]; [lia|]. destruct (f a); cbn [length]; lia. Qed.

Lemma preds_len b : (length (preds b) <= length (g_edges g))%nat.
Proof. unfold g_pred. rewrite map_length. apply filter_len. Qed.

Definition bug_fuel : nat := S (length (g_edges g) + length (an_rpo an)).

Lemma break_bug_calm fuel b : reach b -> (bug_fuel <= fuel)%nat -> calm true (break_bug strict g an fuel b).
Proof.
  intros R L. unfold bug_fuel in L. unfold break_bug.
  assert (E : exists d, an_idom an b = Some d /\ reach d).
  { destruct (Z.eq_dec b entry) as [->|N].
    - exists entry. split; [exact (as_entry _ _ _ AN)|]. eexists. constructor.
    - destruct (as_idom _ _ _ AN b R N) as (d & E & D1 & D2 & _). exists d. split; [exact E|exact (doms_reach _ _ d b D2)]. }
  destruct E as (d & E & Rd). rewrite E.
  destruct (up_to_header_calm fuel d Rd) as (C & _). { pose proof (id_le (an_rpo an) d). lia. }
  apply calm_bind; [exact C|]. intros dom _. destruct (mem_z dom (an_headers an)); [|apply calm_good]. cbv zeta.
  apply calm_bind; [|intros; apply calm_good]. apply loop_blocks_calm. rewrite rev_length.
  pose proof (filter_len (fun p => id dom <=? id p) (preds dom)). pose proof (preds_len dom).
  assert (U : forall v, (unvisited v <= length (an_rpo an))%nat) by (intro; apply filter_len).
  match goal with |- context [unvisited ?v] => specialize (U v) end. lia.
Qed.

Lemma verify_join_calm fuel cur x y : reach cur -> (bug_fuel <= fuel)%nat -> calm true (verify_join strict g an fuel cur x y).
Proof.
  intros R L. unfold verify_join. destruct (negb (vd_stack x =? vd_stack y)); [apply calm_bad|].
  destruct (negb (Nat.eqb _ _)).
  - apply calm_bind; [apply break_bug_calm; assumption|]. intros [] _; [apply calm_good|apply calm_bad].
  - destruct (negb _); [apply calm_bad|apply calm_good].
Qed.
End Bug.

(* --- mergeTracker --- *)
Lemma merge_walk_finishes fuel : forall near rest a, (length near + length rest < fuel)%nat -> merge_walk fuel near rest a <> CLoop.
Proof.
  induction fuel as [|f IH]; intros near rest a L; [lia|]. cbn [merge_walk]. destruct rest as [|h t]; [discriminate|].
  destruct (h <? a).
  - destruct t as [|h2 t]; [destruct near as [|n near]; [discriminate|]|]; apply IH; cbn [length] in *; lia.
  - destruct (h =? a); discriminate.
Qed.

Lemma cbind_loop {A B} (r : cres A) (k : A -> cres B) : r <> CLoop -> (forall a, k a <> CLoop) -> cbind r k <> CLoop.
Proof. intros H K. destruct r; cbn [cbind]; [apply K|discriminate|discriminate|contradiction]. Qed.

Lemma merge_loop_finishes mine : forall theirs near rest, merge_loop mine theirs near rest <> CLoop.
Proof.
  induction mine as [|a mine IH]; intros theirs near rest; cbn [merge_loop]; [discriminate|].
  destruct theirs as [|b theirs]; [discriminate|]. cbv zeta.
  destruct ((a =? -1) || (b =? a)); [apply cbind_loop; [apply IH|discriminate]|].
  destruct (a =? 0); [apply cbind_loop; [apply IH|discriminate]|].
  destruct rest as [|r rest]; [discriminate|]. apply cbind_loop.
  - apply merge_walk_finishes. lia.
  - intros x. apply cbind_loop; [apply IH|discriminate].
Qed.

Section Graph.
Variable strict : bool.
Variable env : venv.
Variable entry : Z.
Variable g : graph.
Variable an : analysis.
Variable args : Z.
Variable sizes : list Z.
Hypothesis AN : analysed entry (g_succ g) an.
Hypothesis NE : g_pred g entry = [].
Notation id := (id_of (an_rpo an)).
Notation preds := (g_pred g).
Notation reach := (reachable entry (g_succ g)).
Hypothesis PRE : forall b p, In p (preds b) -> reach p.
Variable fuel : nat.
Hypothesis BF : (bug_fuel g an <= fuel)%nat.
Hypothesis INS : forall b x, In b (an_rpo an) -> calm true (verify_insns env args sizes fuel (end_of g b) None b x).
Notation sc := (v_scopes env).

Lemma merge_tracker_calm b bug x y : reach b -> calm sc (merge_tracker strict env g an fuel b bug x y).
Proof.
  intro R. unfold merge_tracker. apply calm_bind; [apply calm_weaken; exact (verify_join_calm strict entry g an AN NE PRE fuel b x y R BF)|].
  intros f _. cbv zeta. destruct (v_scopes env); [apply calm_good|]. destruct (bug || f); [apply calm_good|].
  split; [|discriminate]. apply cbind_loop; [apply merge_loop_finishes|discriminate].
Qed.

Lemma join_preds_calm data b ps : reach b -> forall later bug found e, calm sc (join_preds strict env g an fuel data b ps later bug found e).
Proof.
  intro R. induction ps as [|p ps IH]; intros later bug found e; cbn [join_preds]; [apply calm_good|].
  destruct (id b <=? id p); [apply IH|]. destruct found as [d|]; [|apply IH].
  apply calm_bind; [apply merge_tracker_calm; exact R|]. intros x _. apply IH.
Qed.

Lemma verify_blocks_calm bs : forall st, incl bs (an_rpo an) -> calm sc (verify_blocks strict env g an args sizes fuel bs st).
Proof.
  induction bs as [|b bs IH]; intros st I; cbn [verify_blocks]; [apply calm_good|].
  assert (Ib : In b (an_rpo an)) by (apply I; left; reflexivity). pose proof (proj1 (as_all _ _ _ AN b) Ib) as R.
  apply calm_bind.
  - unfold handle_joins. apply calm_bind; [apply join_preds_calm; exact R|]. intros (((? & ?) & ?) & ?) _. apply calm_good.
  - intros st1 _. apply calm_bind; [apply calm_weaken; apply INS; exact Ib|]. intros x _. apply IH. intros c C. apply I. right. exact C.
Qed.

(* A block left for later has been entered. *)
Lemma verify_blocks_entry bs : forall st st', incl bs (an_rpo an) ->
  (forall b, In b (vs_later st) -> vs_entry st b <> None) ->
  verify_blocks strict env g an args sizes fuel bs st = CGood st' -> forall b, In b (vs_later st') -> vs_entry st' b <> None.
Proof.
  induction bs as [|b bs IH]; intros st st' I G H; cbn [verify_blocks] in H.
  - assert (st' = st) as -> by congruence. exact G.
  - apply cbind_good in H. destruct H as (st1 & J & H). apply cbind_good in H. destruct H as (x1 & _ & H).
    assert (Ib : In b (an_rpo an)) by (apply I; left; reflexivity). pose proof (proj1 (as_all _ _ _ AN b) Ib) as R.
    refine (IH _ st' _ _ H); [intros c C; apply I; right; exact C|]. cbn [vs_later vs_entry].
    unfold handle_joins in J. apply cbind_good in J. destruct J as ((((later & bug) & found) & entry') & JP & J).
    match type of J with CGood ?z = _ => assert (st1 = z) as -> by congruence end. cbn [vs_later vs_entry].
    pose proof (join_preds_spec _ _ _ _ _ _ _ _ _ _ None None _ _ _ _ eq_refl JP) as (_ & _ & S1).
    assert (LN : later = true -> preds b <> []).
    { intros -> E. rewrite E in JP. cbn [join_preds] in JP. congruence. }
    destruct found as [d|].
    + destruct S1 as ((e & -> & _) & _). intros c C. unfold upd. destruct (Z.eqb_spec c b) as [->|N]; [discriminate|].
      apply G. destruct later; [apply in_app_or in C; destruct C as [C|[C|[]]]; [exact C|congruence]|exact C].
    + destruct S1 as (_ & _ & S1). destruct later; [exfalso|exact G]. specialize (LN eq_refl).
      assert (NB : b <> entry) by congruence.
      destruct (lower_pred _ _ _ AN b R NB) as (p & _ & SB & LP). apply in_g_succ, in_g_pred in SB. specialize (S1 p SB). lia.
Qed.

Lemma verify_later_calm cur st bs : reach cur -> (forall b, In b bs -> vs_entry st b <> None) -> calm true (verify_later strict g an fuel cur st bs).
Proof.
  intros R. induction bs as [|b bs IH]; intros G; cbn [verify_later]; [apply calm_good|].
  apply calm_bind; [|intros _ _; apply IH; intros c C; apply G; right; exact C].
  pose proof (G b (or_introl eq_refl)) as GB. destruct (preds b) as [|p ps]; [apply calm_good|]. destruct (vs_entry st b) as [e|]; [|contradiction].
  generalize (p :: ps). intro l. induction l as [|q l IHl]; cbn [join_again]; [apply calm_good|].
  apply calm_bind; [exact (verify_join_calm strict entry g an AN NE PRE fuel cur e (vs_data st q) R BF)|]. intros _ _. exact IHl.
Qed.

Lemma last_in {A} (l : list A) d : l <> [] -> In (last l d) l.
Proof. induction l as [|a l IH]; [contradiction|]. intros _. destruct l as [|b l]; [left; reflexivity|]. right. apply IH. discriminate. Qed.

Lemma verify_graph_calm mx : calm sc (verify_graph strict env g an args sizes fuel mx).
Proof.
  unfold verify_graph. apply calm_bind; [apply verify_blocks_calm; intros c C; exact C|]. intros st V.
  apply calm_bind.
  - apply calm_weaken. apply verify_later_calm.
    + apply (as_all _ _ _ AN). apply last_in. intro E. assert (In entry (an_rpo an)) as Q by (apply (as_all _ _ _ AN); eexists; constructor). rewrite E in Q. destruct Q.
    + refine (verify_blocks_entry _ _ _ _ _ V); [intros c C; exact C|]. cbn [vs_later]. intros b [].
  - intros _ _. destruct (INT_MAX4 <? vs_max st); [apply calm_bad|apply calm_good].
Qed.
End Graph.

(* --- The instructions of a block --- *)
Section Insns.
Variable strict : bool.
Variable rounds fuel0 : nat.
Variable env : venv.
Variable m : Z.
Variable pr : pre.
Variable g : graph.
Variable an : analysis.
Variable args : Z.
Variable sizes : list Z.
Notation code := (v_code env).
Hypothesis CO : code_ok code.
Hypothesis M0 : 0 <= m.
Hypothesis CK : counts_ok code m.
Hypothesis BU : build strict rounds fuel0 code m = CGood (pr, g, an).
Notation span := (span code m (pr_targets pr)).
Notation joins := (joins (pr_targets pr)).
Notation blocks := (m :: g_known g).

Lemma insn_inside c : In c (pr_insns pr) -> 0 < insn_size code c /\ 0 <= c /\ c + insn_size code c <= code_cells code.
Proof.
  intro H. destruct (build_parts _ _ _ _ m pr g an CO BU) as ((_ & P & _) & _). destruct (P c H) as (S & _).
  exact (scanned_pos code m CO CK _ c S).
Qed.

Lemma vreads_le i c : Interp_Model.decode code c = Some i -> In c (pr_insns pr) -> c + vreads i <= code_cells code.
Proof.
  intros D I. pose proof (insn_inside c I) as (P & _ & L). 
  assert (Q : vreads i <= insn_size code c \/ vreads i = 1 \/ exists n, i = CASETBL n).
  { destruct i; cbn [vreads vsize]; try (right; left; reflexivity); try (right; right; eexists; reflexivity); left;
    rewrite <- (vsize_insn code c _ D) by discriminate; cbn [vsize]; lia. }
  destruct Q as [Q|[Q|(n & ->)]]; [lia|lia|]. cbn [vreads].
  assert (E : cell_at code c = OP_CASETBL).
  { clear - D. unfold Interp_Model.decode in D. cbv zeta in D. destruct (cell_at code c) as [|q|q]; try discriminate D.
    do 8 (try (destruct q as [q|q|]; try discriminate D)). reflexivity. }
  destruct (build_parts _ _ _ _ m pr g an CO BU) as ((_ & PI & _) & _). destruct (PI c I) as ((_ & _ & _ & S) & _).
  destruct (S E) as (_ & S2 & _). unfold code_cells. lia.
Qed.

Lemma verify_insns_calm b fuel : In b blocks -> forall c prev x, span b c -> (Z.to_nat (end_of g b - c) < fuel)%nat ->
  calm true (verify_insns env args sizes fuel (end_of g b) prev c x).
Proof.
  intros Bb. induction fuel as [|f IH]; intros c prev x S L; [lia|]. cbn [verify_insns].
  destruct (end_of g b <=? c) eqn:E; [apply calm_good|].
  pose proof (span_insn _ _ _ _ m pr g an CO BU b c Bb S) as I. destruct (insn_inside c I) as (P1 & P2 & P3).
  destruct ((c <? 0) || (code_cells code <=? c)) eqn:R; [exfalso; lia|].
  destruct (Interp_Model.decode code c) as [i|] eqn:D; [|apply calm_bad].
  pose proof (vreads_le i c D I). destruct (code_cells code <? c + vreads i) eqn:V; [exfalso; lia|].
  apply calm_bind; [apply verify_op_calm|]. intros y VO.
  rewrite (vsize_insn code c i D (op_not_halt _ _ _ _ _ _ _ VO)).
  destruct (Z.le_gt_cases (end_of g b) (c + insn_size code c)) as [G|G].
  - destruct f as [|f]; [lia|]. cbn [verify_insns]. destruct (end_of g b <=? c + insn_size code c) eqn:E2; [apply calm_good|lia].
  - destruct (block_last strict rounds fuel0 env m pr g an CO BU b Bb) as (t & St & T).
    assert (LT : c <= t) by (apply (span_le _ _ _ _ m pr g an CO CK BU b t c Bb St); [destruct T as [T|T]; [left|right]; apply T|exact S]).
    assert (NT : c <> t). { intros ->. destruct T as [(_ & E2 & _)|(_ & _ & E2 & _)]; lia. }
    assert (NJ : ~ joins b c).
    { intro J. pose proof (span_le _ _ _ _ m pr g an CO CK BU b c t Bb S (or_introl J) St). lia. }
    assert (NC : is_control (cell_at code c) = false).
    { destruct (is_control (cell_at code c)) eqn:C; [|reflexivity].
      pose proof (span_le _ _ _ _ m pr g an CO CK BU b c t Bb S (or_intror C) St). lia. }
    apply IH; [apply span_next; assumption|lia].
Qed.

Lemma verify_insns_block b fuel x : In b blocks -> (Z.to_nat (code_cells code) + 1 < fuel)%nat ->
  calm true (verify_insns env args sizes fuel (end_of g b) None b x).
Proof.
  intros Bb L.
  assert (EN : end_of g b <= code_cells code).
  { destruct (block_last strict rounds fuel0 env m pr g an CO BU b Bb) as (t & St & T).
    pose proof (insn_inside t (span_insn _ _ _ _ m pr g an CO BU b t Bb St)). destruct T as [(_ & E & _)|(_ & _ & E & _)]; lia. }
  pose proof (span_first code m (pr_targets pr) b) as SF. unfold first_of in SF.
  destruct (Z.eq_dec b m) as [EB|N].
  - rewrite EB in *. rewrite Z.eqb_refl in SF. destruct fuel as [|f]; [lia|]. cbn [verify_insns].
    destruct (end_of g m <=? m) eqn:E; [apply calm_good|].
    destruct (build_parts _ _ _ _ m pr g an CO BU) as (_ & _ & _ & _ & BO & _ & PC & ML).
    destruct ((m <? 0) || (code_cells code <=? m)) eqn:R; [exfalso; unfold code_cells in R; lia|].
    assert (D : Interp_Model.decode code m = Some PROC) by (unfold Interp_Model.decode; rewrite PC; reflexivity). rewrite D. cbn [vreads vsize].
    destruct (code_cells code <? m + 1) eqn:V; [exfalso; unfold code_cells in V; lia|].
    destruct x as (d & mx). cbn [verify_op cbind]. apply (verify_insns_calm m f Bb (m + 1)); [exact SF|lia].
  - destruct (Z.eqb_spec b m) as [|_]; [contradiction|]. apply (verify_insns_calm b fuel Bb b); [exact SF|].
    pose proof (insn_inside b (span_insn _ _ _ _ m pr g an CO BU b b Bb SF)). lia.
Qed.
End Insns.

(* --- verify --- *)
Lemma local_sizes_calm strict t n : forall o, calm true (local_sizes strict t n o).
Proof.
  induction n as [|n IH]; intro o; cbn [local_sizes]; [apply calm_good|].
  destruct (getb t o) as [b0|]; [|apply calm_good]. destruct (if b0 =? kConst then _ else _) as [(b & o1)|]; [|apply calm_good]. cbv zeta.
  destruct (if existsb _ _ then _ else _) as [s|]; [|apply calm_bad]. destruct (skip_to strict (fuel_for t) t o1) as [o2|]; [|apply calm_assert].
  apply calm_bind; [apply IH|]. intros; apply calm_good.
Qed.

Lemma rpo_len strict rounds fuel code m pr g an : code_ok code -> build strict rounds fuel code m = CGood (pr, g, an) ->
  (length (an_rpo an) <= S (length (g_known g)))%nat.
Proof.
  intros CO BU. destruct (build_parts strict rounds fuel code m pr g an CO BU) as (_ & _ & _ & _ & BO & A & _).
  change (S (length (g_known g))) with (length (m :: g_known g)). apply NoDup_incl_length; [exact (as_once _ _ _ A)|].
  intros b I. apply (as_all _ _ _ A) in I. destruct I as (l & P). destruct (path_last _ _ _ _ P) as [->|(a & E)]; [left; reflexivity|].
  right. exact (proj2 (bo_edge _ _ _ _ BO a b E)).
Qed.

Lemma verify_finishes strict env o : code_ok (v_code env) -> 0 <= o -> counts_ok (v_code env) (o / 4) ->
  exists n, forall rounds fuel, (n <= rounds)%nat -> (n <= fuel)%nat -> calm (v_scopes env) (verify strict rounds fuel env o).
Proof.
  intros CO O0 CK. assert (M0 : 0 <= o / 4) by (apply Z.div_pos; lia).
  destruct (build_finishes strict (v_code env) (o / 4) CO M0 CK) as (n & B).
  set (F := ((length (v_code env) + 2) * (length (v_code env) + 2))%nat).
  pose proof (scan_method_total strict (v_code env) (o / 4) CO M0 CK F (le_n _)) as SN.
  set (k := match scan_method strict F (v_code env) (o / 4) with CGood (_, g) => S (length (g_edges g) + S (length (g_known g)))%nat | _ => 0%nat end).
  exists (n + F + k + S (S (Z.to_nat (code_cells (v_code env)))))%nat. intros rounds fuel LR LF.
  specialize (B rounds fuel ltac:(lia) ltac:(lia)).
  unfold verify. destruct (negb (o mod 4 =? 0)); [apply calm_bad|]. apply calm_bind.
  { destruct (v_rtti env) as [(t & rows)|]; [|apply calm_good]. destruct (method_row rows o) as [r|]; [|apply calm_bad].
    destruct (m_start r =? o); [apply calm_good|apply calm_bad]. }
  intros mt _. apply calm_bind.
  { destruct (v_typed env); [|apply calm_good]. unfold verify_local_slots. destruct mt as [(t & r)|]; [|apply calm_bad].
    destruct (ReadFunctionSignatureArgCount t (m_sig r)) as [[args|] p|u]; try apply calm_bad.
    destruct (m_locals r =? 0); [apply calm_good|]. destruct (ReadLocalSlotCount t (m_locals r)) as [[c|] p'|u]; try apply calm_bad.
    apply calm_bind; [apply calm_weaken; apply local_sizes_calm|]. intros; apply calm_good. }
  intros [(args & sizes)|] _; [|apply calm_good]. apply calm_bind.
  { split; [exact (proj1 B)|intros _; exact (proj2 B)]. }
  intros ((pr & g) & an) BU. apply calm_bind; [|intros; apply calm_good].
  destruct (build_parts strict rounds fuel (v_code env) (o / 4) pr g an CO BU) as (_ & _ & _ & _ & BO & A & _).
  pose proof (rpo_len _ _ _ _ _ _ _ _ CO BU) as RL.
  assert (K : k = S (length (g_edges g) + S (length (g_known g)))%nat).
  { unfold k. unfold build in BU. apply cbind_good in BU. destruct BU as ((pr' & g') & SC & H). apply cbind_good in H. destruct H as (a' & _ & H).
    assert (g' = g) as -> by congruence. destruct (scan_method_mono strict (v_code env) (o / 4) F fuel ltac:(lia)) as [Q|Q]; [rewrite Q in SN; destruct SN|].
    rewrite Q, SC. reflexivity. }
  assert (IB : forall b, In b (an_rpo an) -> In b (o / 4 :: g_known g)).
  { intros b I. apply (as_all _ _ _ A) in I. destruct I as (l & P). destruct (path_last _ _ _ _ P) as [->|(a & E)]; [left; reflexivity|].
    right. exact (proj2 (bo_edge _ _ _ _ BO a b E)). }
  apply (verify_graph_calm strict env (o / 4) g an args sizes A).
  - destruct (g_pred g (o / 4)) as [|p ps] eqn:E; [reflexivity|]. exfalso.
    assert (I : In p (g_pred g (o / 4))) by (rewrite E; left; reflexivity). apply in_g_pred, in_g_succ in I.
    destruct (bo_edge _ _ _ _ BO p (o / 4) I) as (_ & I2). pose proof (bo_nodup _ _ _ _ BO) as ND. inversion ND; contradiction.
  - intros b p P. apply in_g_pred, in_g_succ in P. destruct (bo_edge _ _ _ _ BO p b P) as (P1 & _). exact (bo_reach _ _ _ _ BO p P1).
  - unfold bug_fuel. lia.
  - intros b x I. apply (verify_insns_block strict rounds fuel env (o / 4) pr g an args sizes CO M0 CK BU b fuel x (IB b I)). lia.
Qed.
