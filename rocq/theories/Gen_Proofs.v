(* The code generated for an expression computes it. *)
From Verif Require Import Base Base_Proofs Rt_Model Rt_Spec Rt_Proofs Interp_Model Alu_Spec Alu_Proofs
  Fold_Model Fold_Spec Fold_Proofs Gen_Model Gen_Spec Gen_Steps.
From Coq Require Import ZifyBool Lia.
Ltac Zify.zify_post_hook ::= idtac.

Scheme expr_mind := Induction for expr Sort Prop
with lval_mind := Induction for lval Sort Prop
with chain_mind := Induction for chain Sort Prop.
Combined Scheme elc_ind from expr_mind, lval_mind, chain_mind.

Lemma andthen_val {A} (r : ev A) : andthen r (fun v st => Val v st) = r.
Proof. destruct r; reflexivity. Qed.

(* ---- Constants ---- *)
Lemma link_means op x y : ordering op = true -> means op x y = OVal (truth (link op x y)).
Proof. destruct op; try discriminate; intros _; cbn [means link]; rewrite ?Z.geb_leb, ?Z.gtb_ltb; reflexivity. Qed.
Lemma truth_b2z b : b2z b = truth b. Proof. destruct b; reflexivity. Qed.
Lemma truth_nz b : negb (truth b =? 0) = b. Proof. destruct b; reflexivity. Qed.
Lemma fold_unary_means op v w : is_i32 v -> fold_unary false op v = Folded w -> w = umeans op v.
Proof.
  intros V. destruct op; cbn [fold_unary umeans].
  - intros [= <-]. unfold Z.lnot. lia.
  - intros [= <-]. apply truth_b2z.
  - unfold carith. destruct (is_i32b (- v)) eqn:E; intros [= <-]; [|reflexivity].
    apply is_i32b_spec in E. now rewrite wrap32_id.
Qed.

Lemma konst_sound sc :
  (forall e, accepted e -> forall v, konst e = Some v -> is_i32 v /\ forall st, eval sc e st = Val v st) /\
  (forall l : lval, True) /\
  (forall c, accepted_c c -> forall acc l v, kchain acc l c = Some v ->
     is_i32 v /\ forall st, evchain sc (truth acc) l c st = Val v st).
Proof.
  apply elc_ind; cbn [konst kchain accepted accepted_c]; try discriminate; try (intros; discriminate); try auto.
  - intros v A w [= <-]. auto.
  - intros op e IH A v. destruct (konst e) as [x|]; [|discriminate]. destruct (IH A x eq_refl) as [X E].
    destruct (fold_unary false op x) eqn:F; try discriminate. intros [= <-].
    apply fold_unary_means in F; [|exact X]. subst. split; [now apply umeans_range|]. intros st. cbn [eval]. now rewrite E.
  - intros op a IHa b IHb (A & B & C) v. destruct (konst a) as [x|]; [|discriminate]. destruct (konst b) as [y|]; [|discriminate].
    destruct (IHa A x eq_refl) as [X Ea]. destruct (IHb B y eq_refl) as [Y Eb].
    destruct (calc false op x y) eqn:F; try discriminate. intros [= <-]. pose proof (calc_means op x y X Y) as Me. rewrite F in Me.
    split; [now apply (means_range op x y)|]. intros st. cbn [eval]. rewrite Ea. cbn [andthen]. rewrite Eb. cbn [andthen].
    unfold operate. now rewrite Me.
  - intros op a IHa b IHb (A & B) v. destruct (konst a) as [x|]; [|discriminate]. destruct (konst b) as [y|]; [|discriminate].
    destruct (IHa A x eq_refl) as [X Ea]. destruct (IHb B y eq_refl) as [Y Eb]. intros [= <-].
    split; [destruct op; cbn [fold_logical]; rewrite truth_b2z; apply truth_range|].
    intros st. destruct op; cbn [eval fold_logical]; rewrite Ea; cbn [andthen]; rewrite truth_b2z;
    destruct (x =? 0); cbn [negb orb andb truth]; try reflexivity; rewrite Eb; reflexivity.
  - intros a IHa op b IHb c IHc (O & A & B & C) v. destruct (konst a) as [x|]; [|discriminate]. destruct (konst b) as [y|]; [|discriminate].
    destruct (IHa A x eq_refl) as [X Ea]. destruct (IHb B y eq_refl) as [Y Eb]. intros H.
    destruct (IHc C _ _ _ H) as [V Ec]. split; [exact V|]. intros st. cbn [eval]. rewrite Ea. cbn [andthen]. rewrite Eb. cbn [andthen].
    unfold operate. rewrite link_means by exact O. cbn [andthen]. apply Ec.
  - intros _ acc l v [= <-]. split; [rewrite truth_b2z; apply truth_range|]. intros st. cbn [evchain]. now destruct acc.
  - intros op e IHe c IHc (O & A & B) acc l v. destruct (konst e) as [y|]; [|discriminate].
    destruct (IHe A y eq_refl) as [Y Ee]. intros H. destruct (IHc B _ _ _ H) as [V Ec]. split; [exact V|].
    intros st. cbn [evchain]. rewrite Ee. cbn [andthen]. unfold operate. rewrite link_means by exact O. cbn [andthen].
    rewrite !truth_nz. apply Ec.
Qed.
Lemma konst_val sc e v : accepted e -> konst e = Some v -> is_i32 v /\ forall st, eval sc e st = Val v st.
Proof. intros A. now apply (proj1 (konst_sound sc) e A). Qed.

Lemma depths : (forall e, 0 <= depth e) /\ (forall l, 0 <= ldepth l) /\ (forall c, 0 <= cdepth c).
Proof. apply elc_ind; intros; cbn [depth ldepth cdepth]; lia. Qed.
Lemma depth_nonneg e : 0 <= depth e. Proof. apply depths. Qed.
Lemma ldepth_nonneg l : 0 <= ldepth l. Proof. apply depths. Qed.
Lemma cdepth_nonneg c : 0 <= cdepth c. Proof. apply depths. Qed.

Section Machine.
Variable M : machine.
Variable sc : scope.
Variable obase : nat -> Z.
Variable wh : nat -> Z.
Variable glab : nat -> nat.
Variable ga : nat -> Z.
Hypothesis PD : placed_data M sc obase wh glab ga.
Hypothesis TMO : forall c, m_tmo M c = false.
Notation code := (p_code (m_prog M)).
Notation ncells := (Z.of_nat (length (p_code (m_prog M)))).
Hypothesis SMALL : 4 * ncells < two31.
Notation s0 := (m_rt M).
Notation At := (at_ M).
Notation Gets := (gets M).
Notation Holds := (holds M sc obase).
Notation Only := (only_data M sc obase).
Notation Adr := (adr obase).
Notation Live := (live sc).
Notation Stops := (stops M sc obase).
Notation Laid := (laid code wh).
Notation Gen := (gen glab ga).
Notation GenL := (gen_lv glab ga).
Notation GenC := (gen_chain glab ga).

(* The lemmas of Gen_Steps for this machine. *)
Local Notation vrun_app := (Gen_Steps.vrun_app M).
Local Notation gets_refl := (Gen_Steps.gets_refl M).
Local Notation gets_trans := (Gen_Steps.gets_trans M).
Local Notation gets_step := (Gen_Steps.gets_step M).
Local Notation gets_stops := (Gen_Steps.gets_stops M sc obase).
Local Notation stop_step := (Gen_Steps.stop_step M sc obase).
Local Notation vstep_plain := (Gen_Steps.vstep_plain M).
Local Notation vstep_jump := (Gen_Steps.vstep_jump M TMO).
Local Notation vstep_jcmp := (Gen_Steps.vstep_jcmp M TMO).
Local Notation laid_app := (Gen_Steps.laid_app M wh).
Local Notation laid1 := (Gen_Steps.laid1 M wh).
Local Notation laid2 := (Gen_Steps.laid2 M wh).
Local Notation laid_label := (Gen_Steps.laid_label M wh).
Local Notation laid_bind := (Gen_Steps.laid_bind M wh).
Local Notation lay_bounds := (Gen_Steps.lay_bounds M sc obase wh glab ga PD).
Local Notation lay_St := (Gen_Steps.lay_St M sc obase wh glab ga PD).
Local Notation script_St := (Gen_Steps.script_St M).
Local Notation reach_i32 := (Gen_Steps.reach_i32 M sc obase wh glab ga PD).
Local Notation live_reach := (Gen_Steps.live_reach M sc obase wh glab ga PD).
Local Notation live_apart := (Gen_Steps.live_apart M sc obase wh glab ga PD).
Local Notation pointer_apart := (Gen_Steps.pointer_apart M sc obase wh glab ga PD).
Local Notation holds_i32 := (Gen_Steps.holds_i32 M sc obase).
Local Notation only_refl := (Gen_Steps.only_refl M sc obase).
Local Notation only_trans := (Gen_Steps.only_trans M sc obase).
Local Notation only_mono := (Gen_Steps.only_mono M sc obase).
Local Notation only_push := (Gen_Steps.only_push M sc obase).
Local Notation only_store := (Gen_Steps.only_store M sc obase).
Local Notation only_temp := (Gen_Steps.only_temp M sc obase wh glab ga PD).
Local Notation holds_only := (Gen_Steps.holds_only M sc obase wh glab ga PD).
Local Notation holds_push := (Gen_Steps.holds_push M sc obase wh glab ga PD).
Local Notation holds_update := (Gen_Steps.holds_update M sc obase wh glab ga PD).
Local Notation ins := (Gen_Steps.ins M).
Local Notation go := (Gen_Steps.go M).
Local Notation go_fail := (Gen_Steps.go_fail M sc obase).
Local Notation slots_none := (Gen_Steps.slots_none M).
Local Notation slots_one := (Gen_Steps.slots_one M).
Local Notation inside := (Gen_Steps.inside M sc obase wh glab ga PD).
Local Notation go_push := (Gen_Steps.go_push M sc obase wh glab ga PD).
Local Notation pop_ok := (Gen_Steps.pop_ok M sc obase wh glab ga PD).
Local Notation go_pop_pri := (Gen_Steps.go_pop_pri M sc obase wh glab ga PD).
Local Notation go_pop_alt := (Gen_Steps.go_pop_alt M sc obase wh glab ga PD).
Local Notation go_swap_alt := (Gen_Steps.go_swap_alt M sc obase wh glab ga PD).
Local Notation go_const_pri := (Gen_Steps.go_const_pri M wh).
Local Notation go_const_alt := (Gen_Steps.go_const_alt M wh).
Local Notation go_xchg := (Gen_Steps.go_xchg M).
Local Notation go_move := (Gen_Steps.go_move M).
Local Notation go_and := (Gen_Steps.go_and M).
Local Notation go_inc := (Gen_Steps.go_inc M).
Local Notation go_add_c := (Gen_Steps.go_add_c M).
Local Notation go_idxaddr := (Gen_Steps.go_idxaddr M).
Local Notation go_unary := (Gen_Steps.go_unary M wh).
Local Notation go_const_label := (Gen_Steps.go_const_label M).
Local Notation get_ok := (Gen_Steps.get_ok M sc obase wh glab ga PD).
Local Notation set_ok := (Gen_Steps.set_ok M sc obase wh glab ga PD).
Local Notation go_load := (Gen_Steps.go_load M sc obase wh glab ga PD).
Local Notation go_load_s := (Gen_Steps.go_load_s M sc obase wh glab ga PD).
Local Notation go_lref_s := (Gen_Steps.go_lref_s M sc obase wh glab ga PD).
Local Notation go_load_i := (Gen_Steps.go_load_i M sc obase wh glab ga PD).
Local Notation go_stor := (Gen_Steps.go_stor M sc obase wh glab ga PD).
Local Notation go_stor_s := (Gen_Steps.go_stor_s M sc obase wh glab ga PD).
Local Notation go_sref_s := (Gen_Steps.go_sref_s M sc obase wh glab ga PD).
Local Notation go_stor_i := (Gen_Steps.go_stor_i M sc obase wh glab ga PD).
Local Notation bounds_exec := (Gen_Steps.bounds_exec M).
Local Notation ins_bounds := (Gen_Steps.ins_bounds M).
Local Notation ins_op := (Gen_Steps.ins_op M).
Local Notation op_slots := (Gen_Steps.op_slots M).
Local Notation go_op := (Gen_Steps.go_op M wh).
Local Notation stop_op := (Gen_Steps.stop_op M sc obase wh).
Local Notation good := (Gen_Steps.good M wh).
Local Notation good_i32 := (Gen_Steps.good_i32 M wh).

(* ---- Reaching the result of an evaluation ---- *)
Definition reaches {A} (m : Z -> Z) (c : config) (q : Z) (r : ev A) (P : A -> (Z -> Z) -> config -> Prop) : Prop :=
  match r with
  | Val v st => exists m' c', Gets c c' /\ P v m' c' /\ Holds st m' /\ Only q m m'
  | Err e st => Stops c e st
  | Unspecified => True
  end.
Lemma r_val {A} m c q v st (P : A -> _ -> _ -> Prop) : P v m c -> Holds st m -> reaches m c q (Val v st) P.
Proof. intros. exists m, c. split; [apply gets_refl|]. split; [assumption|]. split; [assumption|]. apply only_refl. Qed.
Lemma r_go {A} m1 c1 m c q r (P : A -> _ -> _ -> Prop) : Gets c c1 -> Only q m m1 -> reaches m1 c1 q r P -> reaches m c q r P.
Proof.
  intros G O R. destruct r as [v st|e st|]; cbn [reaches] in *.
  - destruct R as (m' & c' & G' & R). exists m', c'. split; [now apply (gets_trans c c1)|].
    destruct R as (R1 & R2 & R3). split; [auto|]. split; [auto|]. now apply (only_trans q m m1).
  - now apply (gets_stops c c1).
  - exact R.
Qed.
Lemma r_go0 {A} c1 m c q r (P : A -> _ -> _ -> Prop) : Gets c c1 -> reaches m c1 q r P -> reaches m c q r P.
Proof. intros G R. apply (r_go m c1); auto. apply only_refl. Qed.
Lemma r_bind {A B} q' m c q (r : ev A) (k : A -> _ -> ev B) P Q : q' <= q -> reaches m c q' r P ->
  (forall v st m' c', P v m' c' -> Holds st m' -> Only q' m m' -> reaches m' c' q (k v st) Q) ->
  reaches m c q (andthen r k) Q.
Proof.
  intros L R K. destruct r as [v st|e st|]; cbn [reaches andthen] in *.
  - destruct R as (m' & c' & G & Pv & H & O). apply (r_go m' c'); auto. now apply (only_mono q').
  - exact R.
  - exact Logic.I.
Qed.
Lemma r_bind_eq {A B} q' m c q (r : ev A) (k : A -> _ -> ev B) P Q : q' <= q -> reaches m c q' r P ->
  (forall v st m' c', r = Val v st -> P v m' c' -> Holds st m' -> Only q' m m' -> reaches m' c' q (k v st) Q) ->
  reaches m c q (andthen r k) Q.
Proof.
  intros L R K. destruct r as [v st|e st|]; cbn [reaches andthen] in *.
  - destruct R as (m' & c' & G & Pv & H & O). apply (r_go m' c'); auto. now apply (only_mono q').
  - exact R.
  - exact Logic.I.
Qed.
Lemma r_then {A} q' m c q (r : ev A) P Q : q' <= q -> reaches m c q' r P ->
  (forall v st m' c', P v m' c' -> Holds st m' -> Only q' m m' -> reaches m' c' q (Val v st) Q) ->
  reaches m c q r Q.
Proof. intros L R K. rewrite <- (andthen_val r). apply (r_bind q' m c q r _ P Q L R K). Qed.
Lemma r_mono {A} q' m c q (r : ev A) P : q' <= q -> reaches m c q' r P -> reaches m c q r P.
Proof.
  intros L R. destruct r as [v st|e st|]; cbn [reaches] in *; auto.
  destruct R as (m' & c' & G & Pv & H & O). exists m', c'. split; [auto|]. split; [auto|]. split; [auto|].
  now apply (only_mono q').
Qed.
Lemma r_post {A} m c q (r : ev A) (P Q : A -> _ -> _ -> Prop) : reaches m c q r P -> (forall v m' c', P v m' c' -> Q v m' c') -> reaches m c q r Q.
Proof.
  intros R K. destruct r as [v st|e st|]; cbn [reaches] in *; auto.
  destruct R as (m' & c' & G & Pv & H & O). exists m', c'. auto.
Qed.
(* At least one step. *)
Definition strictly (c c' : config) : Prop := exists n, vrun M (S n) c = inr c'.
Lemma strictly_step b c c1 c2 : Gets c c1 -> vstep M c1 = Next b c2 -> strictly c c2.
Proof.
  intros [n G] V. exists n. rewrite <- Nat.add_1_r. rewrite (vrun_app _ _ _ _ G). unfold vstep in V. unfold vrun. cbn [run]. now rewrite V.
Qed.
Lemma strictly_gets c c1 c2 : strictly c c1 -> Gets c1 c2 -> strictly c c2.
Proof. intros [n G] [n' G']. exists (n + n')%nat. change (S (n + n')) with (S n + n')%nat. now rewrite (vrun_app _ _ _ _ G). Qed.
Lemma gets_strictly c c1 c2 : Gets c c1 -> strictly c1 c2 -> strictly c c2.
Proof. intros [n G] [n' G']. exists (n + n')%nat. rewrite plus_n_Sm. now rewrite (vrun_app _ _ _ _ G). Qed.
Lemma strictly_gets_too c c' : strictly c c' -> Gets c c'. Proof. intros [n G]. now exists (S n). Qed.
Lemma r_last {A} m c q (r : ev A) (P Q : A -> _ -> _ -> Prop) : reaches m c q r P ->
  (forall v m' c', P v m' c' -> exists c2, strictly c' c2 /\ Q v m' c2) ->
  reaches m c q r (fun v m' c2 => Q v m' c2 /\ strictly c c2).
Proof.
  intros R K. destruct r as [v st|e st|]; cbn [reaches] in *; auto.
  destruct R as (m' & c' & G & Pv & H & O). destruct (K v m' c' Pv) as (c2 & V & Qv). exists m', c2.
  pose proof (gets_strictly _ _ _ G V) as St. auto using strictly_gets_too.
Qed.
Lemma r_bind_g {A B} q' m c q (r : ev A) (k : A -> _ -> ev B) P Q : q' <= q -> reaches m c q' r P ->
  (forall v st m' c', Gets c c' -> P v m' c' -> Holds st m' -> Only q' m m' -> reaches m' c' q (k v st) Q) ->
  reaches m c q (andthen r k) Q.
Proof.
  intros L R K. destruct r as [v st|e st|]; cbn [reaches andthen] in *.
  - destruct R as (m' & c' & G & Pv & H & O). apply (r_go m' c'); auto. now apply (only_mono q').
  - exact R.
  - exact Logic.I.
Qed.
Lemma r_eq {A} m c c' q (r : ev A) P : c = c' -> reaches m c' q r P -> reaches m c q r P.
Proof. now intros ->. Qed.

Lemma go_pop_alt4 m q k p a : 0 <= k -> k + 1 <= ncells -> cell_at code k = 43 -> hp s0 <= q - 4 -> q <= sp s0 ->
  Gets (At m (q - 4) k p a) (At m q (k + 1) p (load32 m (q - 4))).
Proof.
  intros K1 K2 C Q1 Q2. pose proof (go_pop_alt m (q - 4) k p a K1 K2 C ltac:(lia) ltac:(lia)) as G.
  replace (q - 4 + 4) with q in G by lia. exact G.
Qed.
Lemma go_pop_pri4 m q k p a : 0 <= k -> k + 1 <= ncells -> cell_at code k = 42 -> hp s0 <= q - 4 -> q <= sp s0 ->
  Gets (At m (q - 4) k p a) (At m q (k + 1) (load32 m (q - 4)) a).
Proof.
  intros K1 K2 C Q1 Q2. pose proof (go_pop_pri m (q - 4) k p a K1 K2 C ltac:(lia) ltac:(lia)) as G.
  replace (q - 4 + 4) with q in G by lia. exact G.
Qed.

(* [g] computes [e], with [d] cells of temporaries. *)
Definition evaluates (g : list aop) (e : expr) (d : Z) : Prop :=
  forall k m q p a st, Laid k g -> 0 <= k -> k + size g < ncells -> Holds st m -> hp s0 + 4 * d < q <= sp s0 ->
  reaches m (At m q k p a) q (eval sc e st) (fun v m' c' => is_i32 v /\ exists a', c' = At m' q (k + size g) v a').

Lemma sz1 x : size [Emit [x]] = 1. Proof. reflexivity. Qed.
Lemma sz2 x y : size [Emit [x; y]] = 2. Proof. reflexivity. Qed.
Lemma szl x y : size [EmitLabel x y] = 2. Proof. reflexivity. Qed.
Lemma szb x : size [Bind x] = 0. Proof. reflexivity. Qed.
Ltac szs := rewrite ?size_app in *; repeat match goal with
  | |- context [size [Emit [?x; ?y]]] => change (size [Emit [x; y]]) with 2
  | H : context [size [Emit [?x; ?y]]] |- _ => change (size [Emit [x; y]]) with 2 in H
  | |- context [size [Emit [?x]]] => change (size [Emit [x]]) with 1
  | H : context [size [Emit [?x]]] |- _ => change (size [Emit [x]]) with 1 in H
  | |- context [size [EmitLabel ?x ?y]] => change (size [EmitLabel x y]) with 2
  | H : context [size [EmitLabel ?x ?y]] |- _ => change (size [EmitLabel x y]) with 2 in H
  | |- context [size [Bind ?x]] => change (size [Bind x]) with 0
  | H : context [size [Bind ?x]] |- _ => change (size [Bind x]) with 0 in H
  | |- context [size [PUSH_PRI]] => change (size [PUSH_PRI]) with 1
  | H : context [size [PUSH_PRI]] |- _ => change (size [PUSH_PRI]) with 1 in H
  | |- context [size [POP_ALT]] => change (size [POP_ALT]) with 1
  | H : context [size [POP_ALT]] |- _ => change (size [POP_ALT]) with 1 in H
  | |- context [size [POP_PRI]] => change (size [POP_PRI]) with 1
  | H : context [size [POP_PRI]] |- _ => change (size [POP_PRI]) with 1 in H
  end.
Lemma op_i32 x : is_i32b x = true -> is_i32 x. Proof. apply is_i32b_spec. Qed.

(* Push PRI, then evaluate. *)
Lemma r_push {B} q2 g e d k m q p a st (kont : Z -> _ -> ev B) Q : evaluates g e d -> Laid k [PUSH_PRI] -> Laid (k + 1) g ->
  0 <= k -> k + 1 + size g < ncells -> Holds st m -> is_i32 p -> 0 <= d -> hp s0 + 4 * (1 + d) < q <= sp s0 -> q <= q2 ->
  (forall v st' m' a', eval sc e st = Val v st' -> is_i32 v -> Holds st' m' -> Only q m m' -> load32 m' (q - 4) = p ->
     reaches m' (At m' (q - 4) (k + 1 + size g) v a') q2 (kont v st') Q) ->
  reaches m (At m q k p a) q2 (andthen (eval sc e st) kont) Q.
Proof.
  intros E L1 L2 K1 K2 H P D Dq Q2 K. apply laid1 in L1 as [C _]; [|now apply op_i32]. pose proof (size_nonneg g).
  apply (r_go (store32 m (q - 4) p) (At (store32 m (q - 4) p) (q - 4) (k + 1) p a)).
  - apply go_push; auto; lia.
  - apply (only_mono q); [lia|]. apply only_push. lia.
  - apply (r_bind_eq (q - 4)) with (P := fun v m' c' => is_i32 v /\ exists a', c' = At m' (q - 4) (k + 1 + size g) v a'); [lia| |].
    + apply E; auto; [lia|apply holds_push; auto; lia|lia].
    + intros v st' m' c' Ev (V & a' & ->) H' O. apply K; auto.
      * apply (only_trans q m (store32 m (q - 4) p)); [apply only_push; lia|now apply (only_mono (q - 4)); [lia|]].
      * rewrite (only_temp _ _ _ O) by lia. rewrite load32_store32_same. now apply wrap32_id.
Qed.
Lemma r_pushed {B} q2 g e d k m q p a st (kont : Z -> _ -> ev B) Q : evaluates g e d -> Laid k ([PUSH_PRI] ++ g ++ [POP_ALT]) ->
  0 <= k -> k + 1 + size g + 1 < ncells -> Holds st m -> is_i32 p -> 0 <= d -> hp s0 + 4 * (1 + d) < q <= sp s0 -> q <= q2 ->
  (forall v st' m', eval sc e st = Val v st' -> is_i32 v -> Holds st' m' -> Only q m m' ->
     reaches m' (At m' q (k + 1 + size g + 1) v p) q2 (kont v st') Q) ->
  reaches m (At m q k p a) q2 (andthen (eval sc e st) kont) Q.
Proof.
  intros E L K1 K2 H P D Dq Q2 K. rewrite !laid_app in L. destruct L as (L1 & L2 & L3).
  change (size [PUSH_PRI]) with 1 in *. pose proof (size_nonneg g).
  apply (r_push q2 g e d); auto; try lia.
  intros v st' m' a' Ev V H' O T. apply laid1 in L3 as [C _]; [|now apply op_i32].
  eapply r_go0; [apply go_pop_alt4; auto; lia|]. rewrite T. apply K; auto.
Qed.

Lemma gen_konst e n v : konst e = Some v -> Gen Value e n = [Emit (const_pri v)].
Proof. intros K. destruct e; cbn [gen eff]; rewrite ?K; try reflexivity; discriminate. Qed.
Lemma konst_evaluates e n v d : accepted e -> konst e = Some v -> evaluates (Gen Value e n) e d.
Proof.
  intros A K. rewrite (gen_konst e n v K). destruct (konst_val sc e v A K) as [V E].
  intros k m q p a st L K1 K2 H Q. rewrite E.
  eapply r_go0; [apply (go_const_pri m q k p a v); auto; lia|]. apply r_val; [|exact H]. eauto.
Qed.
Lemma right_same b n : (match konst b with Some y => [Emit (const_pri y)] | None => Gen Value b n end) = Gen Value b n.
Proof. destruct (konst b) eqn:K; [|reflexivity]. now rewrite (gen_konst b n z K). Qed.

(* An operator whose left operand is [l]: in PRI, unless it is the constant [kl]. *)
Lemma r_inner {B} q2 op kl b n d k m q p a l st (kont : Z -> Z -> _ -> ev B) Q :
  evaluates (Gen Value b n) b d -> accepted b -> 0 <= d ->
  match kl with Some x => x = l | None => p = l end -> is_i32 l ->
  Laid k (inner (Some op) false kl (konst b) (Gen Value b n)) -> 0 <= k ->
  k + size (inner (Some op) false kl (konst b) (Gen Value b n)) < ncells -> Holds st m ->
  hp s0 + 4 * (1 + d) < q <= sp s0 -> q <= q2 ->
  (forall y v st' m' a', eval sc b st = Val y st' -> is_i32 y -> means op l y = OVal v -> is_i32 v -> (swaps op = true -> a' = y) -> Holds st' m' -> Only q m m' ->
     reaches m' (At m' q (k + size (inner (Some op) false kl (konst b) (Gen Value b n))) v a') q2 (kont y v st') Q) ->
  reaches m (At m q k p a) q2 (andthen (eval sc b st) (fun y st => andthen (operate op l y st) (fun v st => kont y v st))) Q.
Proof.
  intros E Ab D KL Hl L K1 K2 H Dq Q2 K.
  set (k' := k + size (inner (Some op) false kl (konst b) (Gen Value b n))) in *.
  (* the operator itself *)
  assert (OP : forall y st' m' ko, eval sc b st = Val y st' -> is_i32 y -> Holds st' m' -> Only q m m' -> 0 <= ko -> ko + size [Emit (op_code op)] = k' ->
    Laid ko [Emit (op_code op)] ->
    reaches m' (At m' q ko y l) q2 (andthen (operate op l y st') (fun v st => kont y v st)) Q).
  { intros y st' m' ko Ev Y H' O Ko Ke Lo. unfold operate. destruct (means op l y) as [v|e|] eqn:Me; cbn [andthen]; [| |exact Logic.I].
    - eapply r_go0; [apply (go_op m' q ko l y op v); auto; lia|]. rewrite Ke.
      apply K; auto; [now apply (means_range op l y)|]. destruct (swaps op); congruence.
    - apply (stop_op m' q ko l y op e st'); auto; lia. }
  unfold inner in L, K2. destruct kl as [x|].
  - subst x. rewrite right_same in L. rewrite !laid_app in L. destruct L as ((L1 & L2) & L3).
    assert (S' : k' = k + (size (Gen Value b n) + size [Emit (const_alt l)] + size [Emit (op_code op)])).
    { unfold k', inner. now rewrite right_same, !size_app. }
    rewrite size_app in L3. pose proof (size_nonneg [Emit (op_code op)]). pose proof (size_nonneg [Emit (const_alt l)]). pose proof (size_nonneg (Gen Value b n)).
    apply (r_bind_eq q) with (P := fun v m' c' => is_i32 v /\ exists a', c' = At m' q (k + size (Gen Value b n)) v a'); [lia| |].
    + apply E; auto; lia.
    + intros y st' m' c' Ev (Y & a' & ->) H' O.
      eapply r_go0; [apply (go_const_alt m' q (k + size (Gen Value b n)) y a' l); auto; lia|].
      replace (k + size (Gen Value b n) + size [Emit (const_alt l)]) with (k + (size (Gen Value b n) + size [Emit (const_alt l)])) by lia.
      apply OP; auto; lia.
  - subst p.
    assert (GEN : k' = k + 1 + size (Gen Value b n) + 1 + size [Emit (op_code op)] ->
      Laid k (([PUSH_PRI] ++ Gen Value b n ++ [POP_ALT]) ++ [Emit (op_code op)]) ->
      reaches m (At m q k l a) q2 (andthen (eval sc b st) (fun y st => andthen (operate op l y st) (fun v st => kont y v st))) Q).
    { intros S' L'. rewrite laid_app in L'. destruct L' as [L1 L2].
      rewrite !size_app in L2. change (size [PUSH_PRI]) with 1 in L2. change (size [POP_ALT]) with 1 in L2.
      pose proof (size_nonneg [Emit (op_code op)]). pose proof (size_nonneg (Gen Value b n)).
      apply (r_pushed q2 (Gen Value b n) b d); auto; try lia. intros y st' m' Ev Y H' O.
      replace (k + 1 + size (Gen Value b n) + 1) with (k + (1 + (size (Gen Value b n) + 1))) by lia.
      apply OP; auto; lia. }
    destruct (konst b) as [y|] eqn:Kb.
    + destruct (konst_val sc b y Ab Kb) as [Y Eb]. destruct (commutative op) eqn:Co.
      * assert (S' : k' = k + (size [Emit (const_alt y)] + size [Emit (op_code op)])).
        { unfold k', inner. rewrite Co. now rewrite size_app. }
        rewrite laid_app in L. destruct L as (L1 & L2). pose proof (size_nonneg [Emit (op_code op)]). pose proof (size_nonneg [Emit (const_alt y)]).
        rewrite Eb. cbn [andthen].
        eapply r_go0; [apply (go_const_alt m q k l a y); auto; lia|].
        unfold operate. destruct (means op l y) as [v|e|] eqn:Me; cbn [andthen]; [| |exact Logic.I].
        -- eapply r_go0; [apply (go_op m q _ y l op v); auto; [lia|lia|now rewrite means_comm]|].
           replace (k + size [Emit (const_alt y)] + size [Emit (op_code op)]) with k' by lia.
           apply K; auto; [now apply (means_range op l y)|rewrite commutes_no_swap by auto; discriminate|apply only_refl].
        -- apply (stop_op m q _ y l op e st); auto; [lia|lia|now rewrite means_comm].
      * apply GEN.
        -- unfold k', inner. rewrite Co, (gen_konst b n y Kb), !size_app. change (size [PUSH_PRI]) with 1. change (size [POP_ALT]) with 1. lia.
        -- rewrite (gen_konst b n y Kb). exact L.
    + apply GEN; [|exact L]. unfold k', inner. rewrite !size_app. change (size [PUSH_PRI]) with 1. change (size [POP_ALT]) with 1. lia.
Qed.

(* ---- Lvalues ---- *)
Definition reach_l (l : lval) (x : loc) (p : Z) : Prop :=
  Live x /\ match l with LVar y => vloc sc y = Some x | LCell _ _ _ => p = Adr x end.
Definition locates (g : list aop) (l : lval) (d : Z) : Prop :=
  forall k m q p a st, Laid k g -> 0 <= k -> k + size g < ncells -> Holds st m -> hp s0 + 4 * d < q <= sp s0 ->
  reaches m (At m q k p a) q (evloc sc l st)
    (fun x m' c' => exists p' a', c' = At m' q (k + size g) p' a' /\ reach_l l x p').
Lemma adr_i32 x : Live x -> is_i32 (Adr x).
Proof. intros L. apply reach_i32. now apply live_reach. Qed.

Lemma ref_slot sl x st m : vloc sc (VRef sl) = Some x -> Holds st m ->
  slot_ok M sl /\ is_i32 sl /\ reachable M (slot_adr M sl) 4 /\ load32 m (slot_adr M sl) = Adr x.
Proof.
  intros V [_ H]. assert (P : pointer sc obase sl (Adr x)) by (left; eauto).
  destruct (pd_pointer _ _ _ _ _ _ PD _ _ P) as (A & B & C & _). split; [exact A|]. split; [exact B|]. split; [exact C|]. now apply H.
Qed.
Lemma arr_slot sl o st m : aobj sc (ALocal sl) = Some o -> Holds st m ->
  slot_ok M sl /\ is_i32 sl /\ reachable M (slot_adr M sl) 4 /\ load32 m (slot_adr M sl) = obase o.
Proof.
  intros V [_ H]. assert (P : pointer sc obase sl (obase o)) by (right; eauto).
  destruct (pd_pointer _ _ _ _ _ _ PD _ _ P) as (A & B & C & _). split; [exact A|]. split; [exact B|]. split; [exact C|]. now apply H.
Qed.

Lemma go_rvalue l x m q k p a st : Laid k (rvalue glab l) -> 0 <= k -> k + size (rvalue glab l) <= ncells -> Holds st m -> q <= sp s0 ->
  reach_l l x p -> Gets (At m q k p a) (At m q (k + size (rvalue glab l)) (st x) a).
Proof.
  intros L K1 K2 H Q [X R]. pose proof (live_reach x X) as RX. rewrite <- (proj1 H x X).
  destruct l as [[s|g|s]|r sz i]; cbn [rvalue] in *.
  - rewrite sz2 in *. destruct (pd_local _ _ _ _ _ _ PD _ _ R) as (A & B & C & _).
    apply laid2 in L as (C1 & C2 & _); [|now apply op_i32|exact B]. rewrite <- C in *. apply go_load_s; auto.
  - rewrite szl in *. destruct (pd_global _ _ _ _ _ _ PD _ _ R) as (A & _).
    apply laid_label in L as (C1 & C2 & _); [|now apply op_i32|rewrite A; now apply adr_i32]. rewrite A in C2. apply go_load; auto.
  - rewrite sz2 in *. destruct (ref_slot _ _ _ _ R H) as (A & B & C & D).
    apply laid2 in L as (C1 & C2 & _); [|now apply op_i32|exact B]. rewrite <- D in *. apply go_lref_s; auto.
  - rewrite sz1 in *. apply laid1 in L as (C1 & _); [|now apply op_i32]. subst p. apply go_load_i; auto.
Qed.
Lemma go_store l x m q k v a st : Laid k (emit_store ga l) -> 0 <= k -> k + size (emit_store ga l) <= ncells -> Holds st m -> q <= sp s0 ->
  reach_l l x a -> Gets (At m q k v a) (At (store32 m (Adr x) v) q (k + size (emit_store ga l)) v a).
Proof.
  intros L K1 K2 H Q [X R]. pose proof (live_reach x X) as RX.
  destruct l as [[s|g|s]|r sz i]; cbn [emit_store] in *.
  - rewrite sz2 in *. destruct (pd_local _ _ _ _ _ _ PD _ _ R) as (A & B & C & _).
    apply laid2 in L as (C1 & C2 & _); [|now apply op_i32|exact B]. rewrite <- C in *. apply go_stor_s; auto.
  - rewrite sz2 in *. destruct (pd_global _ _ _ _ _ _ PD _ _ R) as (_ & A & _).
    apply laid2 in L as (C1 & C2 & _); [|now apply op_i32|rewrite A; now apply adr_i32]. rewrite A in C2. apply go_stor; auto.
  - rewrite sz2 in *. destruct (ref_slot _ _ _ _ R H) as (A & B & C & D).
    apply laid2 in L as (C1 & C2 & _); [|now apply op_i32|exact B]. rewrite <- D in *. apply go_sref_s; auto.
  - rewrite sz1 in *. apply laid1 in L as (C1 & _); [|now apply op_i32]. subst a. apply go_stor_i; auto.
Qed.

Lemma go_array r o m q k p a st : Laid k (array_address glab r) -> 0 <= k -> k + size (array_address glab r) <= ncells -> Holds st m -> q <= sp s0 ->
  aobj sc r = Some o -> 0 < olen sc o /\ Gets (At m q k p a) (At m q (k + size (array_address glab r)) (obase o) a).
Proof.
  intros L K1 K2 H Q R. destruct r as [g|s]; cbn [array_address] in *.
  - rewrite szl in *. destruct (pd_array _ _ _ _ _ _ PD _ _ R) as (A & B). split; [exact B|].
    assert (I : is_i32 (obase o)).
    { replace (obase o) with (Adr (o, 0)) by (unfold adr; cbn [fst snd]; lia). apply adr_i32. unfold live; cbn [fst snd]; lia. }
    apply laid_label in L as (C1 & C2 & _); [|now apply op_i32|now rewrite A]. rewrite A in C2. apply go_const_label; auto.
  - rewrite sz2 in *. destruct (arr_slot _ _ _ _ R H) as (A & B & C & D). split; [exact (pd_array_slot _ _ _ _ _ _ PD _ _ R)|].
    apply laid2 in L as (C1 & C2 & _); [|now apply op_i32|exact B]. rewrite <- D. apply go_load_s; auto.
Qed.

Lemma locates_var y n d : locates (GenL (LVar y) n) (LVar y) d.
Proof.
  intros k m q p a st L K1 K2 H Q. cbn [gen_lv size evloc] in *. destruct (vloc sc y) as [x|] eqn:V; [|exact Logic.I].
  apply r_val; [|exact H]. exists p, a. split; [f_equal; lia|]. split; [|exact V].
  destruct y as [s|g|s].
  - now apply (pd_local _ _ _ _ _ _ PD) in V.
  - now apply (pd_global _ _ _ _ _ _ PD) in V.
  - now apply (pd_ref _ _ _ _ _ _ PD) in V.
Qed.
Lemma element_adr o i : 0 < olen sc o -> 0 <= i < olen sc o -> wrap32 (obase o + i * 4) = Adr (o, i) /\ is_i32 (i * 4).
Proof.
  intros O I. assert (L : Live (o, i)) by exact I. pose proof (adr_i32 _ L) as A. pose proof (pd_objs _ _ _ _ _ _ PD o O) as (B1 & B2 & _).
  unfold adr in *. cbn [fst snd] in *. replace (obase o + i * 4) with (obase o + 4 * i) by lia. split; [now apply wrap32_id|].
  pose proof lay_bounds. unfold is_i32, two31 in *. lia.
Qed.
Lemma gen_cell r sz i n : GenL (LCell r sz i) n =
  array_address glab r ++
  match konst i with
  | Some v => if v =? 0 then [] else [Emit [87; wrap32 (v * 4)]]
  | None => [PUSH_PRI] ++ Gen Value i n ++
      [Emit [121; if sz =? 0 then 2147483647 else wrap32 (sz - 1)]] ++ [POP_ALT] ++ [Emit [27]]
  end.
Proof. reflexivity. Qed.
Lemma locates_cell r sz i n : accepted_l (LCell r sz i) -> evaluates (Gen Value i n) i (depth i) ->
  locates (GenL (LCell r sz i) n) (LCell r sz i) (1 + depth i).
Proof.
  intros (S1 & S2 & Ai & Ak) E k m q p a st L K1 K2 H Q. pose proof (depth_nonneg i) as Di.
  cbn [evloc]. rewrite gen_cell in *. destruct (aobj sc r) as [o|] eqn:R; [|exact Logic.I].
  rewrite laid_app in L. destruct L as [L1 L2]. rewrite size_app in K2. rewrite size_app.
  destruct (konst i) as [v|] eqn:Ki.
  - destruct (konst_val sc i v Ai Ki) as [V Ei]. rewrite Ei. cbn [andthen]. unfold element.
    replace ((v <? 0) || ((0 <? sz) && (sz <=? v))) with false by lia.
    destruct (v <? olen sc o) eqn:Bo; [|exact Logic.I].
    assert (SZ : 0 <= size (if v =? 0 then [] else [Emit [87; wrap32 (v * 4)]])) by apply size_nonneg.
    destruct (go_array r o m q k p a st L1 K1 ltac:(lia) H ltac:(lia) R) as [O G].
    eapply r_go0; [exact G|].
    destruct (element_adr o v O ltac:(lia)) as [EA E4].
    destruct (v =? 0) eqn:Vz.
    + apply r_val; [|exact H]. exists (obase o), a. cbn [size]. split; [f_equal; lia|]. split; [unfold live; cbn [fst snd]; lia|].
      unfold adr; cbn [fst snd]. lia.
    + apply laid2 in L2 as (C1 & C2 & _); [|now apply op_i32|rewrite wrap32_id; assumption]. rewrite wrap32_id in C2 by assumption. rewrite sz2 in *.
      eapply r_go0; [apply (go_add_c m q _ (obase o) a (v * 4)); auto; pose proof (size_nonneg (array_address glab r)); lia|].
      rewrite EA. apply r_val; [|exact H]. exists (Adr (o, v)), a. split; [f_equal; lia|]. split; [unfold live; cbn [fst snd]; lia|reflexivity].
  - pose proof (size_nonneg (array_address glab r)) as SA. pose proof (size_nonneg (Gen Value i n)) as SI.
    set (lim := if sz =? 0 then 2147483647 else wrap32 (sz - 1)) in *.
    assert (Elim : lim = (if sz =? 0 then 2147483647 else sz - 1) /\ 0 <= lim < two31).
    { unfold lim. destruct (sz =? 0) eqn:Zz; [split; [reflexivity|unfold two31; lia]|].
      rewrite wrap32_id by (unfold is_i32, two31 in *; lia). split; [reflexivity|unfold is_i32 in S2; lia]. }
    destruct Elim as [Elim Blim].
    rewrite !laid_app in L2. destruct L2 as (L2 & L3 & L4 & L5 & L6). szs.
    apply laid2 in L4 as (C1 & C2 & _); [|now apply op_i32|unfold is_i32; lia].
    apply laid1 in L5 as (C3 & _); [|now apply op_i32]. apply laid1 in L6 as (C4 & _); [|now apply op_i32].
    destruct (go_array r o m q k p a st L1 K1 ltac:(lia) H ltac:(lia) R) as [O G].
    eapply r_go0; [exact G|].
    assert (IO : is_i32 (obase o)).
    { replace (obase o) with (Adr (o, 0)) by (unfold adr; cbn [fst snd]; lia). apply adr_i32. unfold live; cbn [fst snd]; lia. }
    apply (r_push q (Gen Value i n) i (depth i)); auto; try lia.
    intros v st' m' a' _ V H' On T.
    set (kb := k + size (array_address glab r) + 1 + size (Gen Value i n)) in *.
    pose proof (bounds_exec lim v (set_sp (q - 4) (set_mem m' s0)) a' V Blim) as X.
    pose proof (ins_bounds kb lim ltac:(lia) ltac:(lia) C1 C2) as IB.
    unfold element. destruct ((v <? 0) || ((0 <? sz) && (sz <=? v))) eqn:Bad.
    + replace ((v <? 0) || (lim <? v)) with true in X.
      2:{ rewrite Elim. destruct (sz =? 0) eqn:Zz; lia. }
      apply (go_fail kb (BOUNDS lim) 2 m' (q - 4) v a' ARRAY_BOUNDS _ st' IB (slots_none (BOUNDS lim) eq_refl) X eq_refl H').
    + replace ((v <? 0) || (lim <? v)) with false in X.
      2:{ rewrite Elim. unfold is_i32, two31 in V. destruct (sz =? 0) eqn:Zz; lia. }
      destruct (v <? olen sc o) eqn:Bo; [|exact Logic.I].
      eapply r_go0; [apply (go kb (BOUNDS lim) 2 m' (q - 4) v a' m' (q - 4) v a' IB (slots_none (BOUNDS lim) eq_refl) X)|].
      eapply r_go0; [apply go_pop_alt4; auto; lia|]. rewrite T.
      eapply r_go0; [apply go_idxaddr; auto; lia|].
      destruct (element_adr o v O ltac:(lia)) as [EA _]. rewrite EA.
      apply r_val; [|exact H']. exists (Adr (o, v)), (obase o). split; [f_equal; unfold kb; lia|]. split; [unfold live; cbn [fst snd]; lia|reflexivity].
Qed.

(* ---- Values, one constructor at a time ---- *)
Definition result (q ke : Z) (v : Z) (m' : Z -> Z) (c' : config) : Prop := is_i32 v /\ exists a', c' = At m' q ke v a'.
Lemma result_eq q k1 k2 v m c : k1 = k2 -> result q k1 v m c -> result q k2 v m c. Proof. now intros ->. Qed.

Lemma v_rv l n : locates (GenL l n) l (ldepth l) -> evaluates (GenL l n ++ rvalue glab l) (Rv l) (depth (Rv l)).
Proof.
  intros E k m q p a st L K1 K2 H Q. cbn [eval depth] in *. rewrite laid_app in L. destruct L as [L1 L2]. szs.
  pose proof (size_nonneg (GenL l n)). pose proof (size_nonneg (rvalue glab l)).
  apply (r_bind q) with (P := fun x m' c' => exists p' a', c' = At m' q (k + size (GenL l n)) p' a' /\ reach_l l x p'); [lia| |].
  - apply E; auto; lia.
  - intros x st' m' c' (p' & a' & -> & R) H' O.
    eapply r_go0; [apply (go_rvalue l x m' q _ p' a' st'); auto; lia|].
    apply r_val; [|exact H']. split; [apply (holds_i32 st' m' x H'), R|]. exists a'. f_equal. lia.
Qed.
Lemma v_un op e n d : evaluates (Gen Value e n) e d -> evaluates (Gen Value e n ++ [Emit (un_code false op)]) (Un op e) d.
Proof.
  intros E k m q p a st L K1 K2 H Q. cbn [eval] in *. rewrite laid_app in L. destruct L as [L1 L2].
  assert (Z1 : size [Emit (un_code false op)] = 1) by (destruct op; reflexivity). rewrite size_app, Z1 in *.
  pose proof (size_nonneg (Gen Value e n)).
  apply (r_bind q) with (P := result q (k + size (Gen Value e n))); [lia| |].
  - apply E; auto; lia.
  - intros x st' m' c' (X & a' & ->) H' O.
    eapply r_go0; [apply (go_unary m' q _ x a' op); auto; lia|].
    apply r_val; [|exact H']. split; [now apply umeans_range|]. exists a'. f_equal. lia.
Qed.
Lemma v_bin op a b n1 n2 : accepted a -> accepted b ->
  evaluates (Gen Value a n1) a (depth a) -> evaluates (Gen Value b n2) b (depth b) ->
  evaluates ((match konst a with Some _ => [] | None => Gen Value a n1 end) ++
             inner (Some op) false (konst a) (konst b) (Gen Value b n2)) (Bin op a b) (depth (Bin op a b)).
Proof.
  intros Aa Ab Ea Eb k m q p al st L K1 K2 H Q. cbn [eval depth] in *. pose proof (depth_nonneg a). pose proof (depth_nonneg b).
  rewrite laid_app in L. destruct L as [L1 L2]. szs.
  assert (LAST : forall kl x p' a' st' m', match kl with Some y => y = x | None => p' = x end -> kl = konst a -> is_i32 x -> Holds st' m' ->
    reaches m' (At m' q (k + size match konst a with Some _ => [] | None => Gen Value a n1 end) p' a') q
      (andthen (eval sc b st') (fun y st => operate op x y st))
      (result q (k + (size match konst a with Some _ => [] | None => Gen Value a n1 end + size (inner (Some op) false (konst a) (konst b) (Gen Value b n2)))))).
  { intros kl x p' a' st' m' P Kl X H'. rewrite <- Kl in L2, K2 |- *.
    pose proof (size_nonneg match kl with Some _ => [] | None => Gen Value a n1 end).
    pose proof (size_nonneg (inner (Some op) false kl (konst b) (Gen Value b n2))).
    assert (G : reaches m' (At m' q (k + size match kl with Some _ => [] | None => Gen Value a n1 end) p' a') q
      (andthen (eval sc b st') (fun y st => andthen (operate op x y st) (fun v st => Val v st)))
      (result q (k + (size match kl with Some _ => [] | None => Gen Value a n1 end + size (inner (Some op) false kl (konst b) (Gen Value b n2)))))).
    { apply (r_inner q op kl b n2 (depth b)); auto; try lia.
      intros y v st2 m2 a2 _ Y Me V Sw Hh2 O2. apply r_val; [|exact Hh2]. split; [exact V|]. exists a2. f_equal. lia. }
    destruct (eval sc b st') as [y st2|e st2|]; cbn [andthen] in *; [|exact G|exact G].
    now rewrite andthen_val in G. }
  destruct (konst a) as [x|] eqn:Ka.
  - destruct (konst_val sc a x Aa Ka) as [X Ev]. rewrite Ev. cbn [andthen].
    apply (r_eq _ _ (At m q (k + size []) p al)); [f_equal; cbn [size]; lia|].
    apply (LAST (Some x) x p al st m); auto.
  - pose proof (size_nonneg (Gen Value a n1)). pose proof (size_nonneg (inner (Some op) false None (konst b) (Gen Value b n2))).
    apply (r_bind q) with (P := result q (k + size (Gen Value a n1))); [lia| |].
    + apply Ea; auto; lia.
    + intros x st' m' c' (X & a' & ->) H' O. apply (LAST None x x a' st' m'); auto.
Qed.
Lemma v_comma a b n1 n2 : evaluates (Gen Value a n1) a (depth a) -> evaluates (Gen Value b n2) b (depth b) ->
  evaluates (Gen Value a n1 ++ Gen Value b n2) (Comma a b) (depth (Comma a b)).
Proof.
  intros Ea Eb k m q p al st L K1 K2 H Q. cbn [eval depth] in *. rewrite laid_app in L. destruct L as [L1 L2]. szs.
  pose proof (size_nonneg (Gen Value a n1)). pose proof (size_nonneg (Gen Value b n2)).
  apply (r_bind q) with (P := result q (k + size (Gen Value a n1))); [lia| |].
  - apply Ea; auto; lia.
  - intros x st' m' c' (X & a' & ->) H' O. rewrite Z.add_assoc. apply Eb; auto; lia.
Qed.

(* Jumps *)
Lemma step_jump m q k p a t kt : Laid k [EmitLabel 51 t] -> 0 <= k -> k + 2 <= ncells -> wh t = 4 * kt -> 0 <= kt < ncells ->
  strictly (At m q k p a) (At m q kt p a).
Proof.
  intros L K1 K2 T B. apply laid_label in L as (C1 & C2 & _); [|now apply op_i32|unfold is_i32; rewrite T; lia].
  rewrite T, Z.mul_comm in C2.
  destruct (vstep_jump k m q p a (kt * 4) K1 K2 C1 C2 ltac:(lia) (Z_mod_mult kt 4) ltac:(lia)) as [b V].
  rewrite Z_div_mult in V by lia. exact (strictly_step b _ _ _ (gets_refl _) V).
Qed.
Lemma step_jcmp m q k p a op cm t kt : Laid k [EmitLabel op t] -> 0 <= k -> k + 2 <= ncells -> wh t = 4 * kt -> 0 <= kt < ncells ->
  In (op, cm) [(53, Zero); (54, NotZero); (55, Eq); (56, Neq); (61, Sless); (62, Sleq); (63, Sgrtr); (64, Sgeq)] ->
  strictly (At m q k p a) (At m q (if eval_cmp cm p a then kt else k + 2) p a).
Proof.
  intros L K1 K2 T B I. assert (O : is_i32 op).
  { cbn [In] in I. repeat (destruct I as [I|I]; [injection I as <- _; now apply op_i32|]). contradiction I. }
  apply laid_label in L as (C1 & C2 & _); [|exact O|unfold is_i32; rewrite T; lia].
  rewrite T, Z.mul_comm in C2.
  destruct (vstep_jcmp k cm op m q p a (kt * 4) K1 K2 C1 C2 I ltac:(lia) (Z_mod_mult kt 4) ltac:(lia)) as [b V].
  rewrite Z_div_mult in V by lia. exact (strictly_step b _ _ _ (gets_refl _) V).
Qed.
Lemma go_jump m q k p a t kt : Laid k [EmitLabel 51 t] -> 0 <= k -> k + 2 <= ncells -> wh t = 4 * kt -> 0 <= kt < ncells ->
  Gets (At m q k p a) (At m q kt p a).
Proof. intros. apply strictly_gets_too. now apply (step_jump m q k p a t). Qed.
Lemma go_jcmp m q k p a op cm t kt : Laid k [EmitLabel op t] -> 0 <= k -> k + 2 <= ncells -> wh t = 4 * kt -> 0 <= kt < ncells ->
  In (op, cm) [(53, Zero); (54, NotZero); (55, Eq); (56, Neq); (61, Sless); (62, Sleq); (63, Sgrtr); (64, Sgeq)] ->
  Gets (At m q k p a) (At m q (if eval_cmp cm p a then kt else k + 2) p a).
Proof. intros. apply strictly_gets_too. now apply (step_jcmp m q k p a op cm t). Qed.

Lemma v_tern c a b n nc na nb : evaluates (Gen Value c nc) c (depth c) -> evaluates (Gen Value a na) a (depth a) -> evaluates (Gen Value b nb) b (depth b) ->
  evaluates (Gen Value c nc ++ [EmitLabel 53 n] ++ Gen Value a na ++ [EmitLabel 51 (n + 1)] ++ [Bind n] ++ Gen Value b nb ++ [Bind (n + 1)])
    (Tern c a b) (depth (Tern c a b)).
Proof.
  intros Ec Ea Eb k m q p al st L K1 K2 H Q. cbn [eval depth] in *. rewrite !laid_app in L. destruct L as (L1 & L2 & L3 & L4 & L5 & L6 & L7). szs.
  pose proof (size_nonneg (Gen Value c nc)). pose proof (size_nonneg (Gen Value a na)). pose proof (size_nonneg (Gen Value b nb)).
  rewrite Z.add_0_r in *. apply laid_bind in L5 as [W5 _]. apply laid_bind in L7 as [W7 _].
  apply (r_bind q) with (P := result q (k + size (Gen Value c nc))); [lia| |].
  - apply Ec; auto; lia.
  - intros x st' m' c' (X & a' & ->) H' O.
    eapply r_go0; [apply (go_jcmp m' q _ x a' 53 Zero _ _ L2 ltac:(lia) ltac:(lia) W5 ltac:(lia)); cbn [In]; auto|].
    cbn [eval_cmp]. destruct (x =? 0).
    + eapply r_post; [apply Eb; auto; lia|]. intros v m2 c2 R. eapply result_eq; [|exact R]. lia.
    + apply (r_then q) with (P := result q (k + size (Gen Value c nc) + 2 + size (Gen Value a na))); [lia|apply Ea; auto; lia|].
      intros v st2 m2 c2 (V & a2 & ->) Hh2 O2.
      eapply r_go0; [apply (go_jump m2 q _ v a2 _ _ L4 ltac:(lia) ltac:(lia) W7 ltac:(lia))|].
      apply r_val; [|exact Hh2]. split; [exact V|]. exists a2. f_equal. lia.
Qed.

(* ---- Assignments ---- *)
Definition located (l : lval) (q ke : Z) (x : loc) (m' : Z -> Z) (c' : config) : Prop :=
  exists p' a', c' = At m' q ke p' a' /\ reach_l l x p'.
Lemma inner_asg l a n : inner None (negb (is_cell l)) None (konst a) (Gen Value a n) =
  if is_cell l then [PUSH_PRI] ++ Gen Value a n ++ [POP_ALT] else Gen Value a n.
Proof.
  unfold inner. rewrite app_nil_r. rewrite <- (right_same a n). destruct (konst a), l; cbn [is_cell negb]; rewrite ?app_nil_r; reflexivity.
Qed.
Lemma reach_var y x p p' : reach_l (LVar y) x p -> reach_l (LVar y) x p'. Proof. exact (fun H => H). Qed.
Lemma cell_i32 r sz i x p : reach_l (LCell r sz i) x p -> is_i32 p.
Proof. intros [L ->]. now apply adr_i32. Qed.
(* Store PRI, which is [v]; ALT is the address of a cell. *)
Lemma r_store l x k m q v a st : Laid k (emit_store ga l) -> 0 <= k -> k + size (emit_store ga l) <= ncells -> Holds st m -> q <= sp s0 ->
  reach_l l x a -> is_i32 v ->
  reaches m (At m q k v a) q (Val v (update st x v)) (result q (k + size (emit_store ga l))).
Proof.
  intros L K1 K2 H Q R V. eapply r_go; [apply (go_store l x m q k v a st); auto|apply only_store, R|].
  apply r_val; [|apply holds_update; auto; apply R]. split; [exact V|]. eauto.
Qed.
Lemma v_asg l a n1 n2 : locates (GenL l n1) l (ldepth l) -> evaluates (Gen Value a n2) a (depth a) ->
  evaluates (GenL l n1 ++ inner None (negb (is_cell l)) None (konst a) (Gen Value a n2) ++ emit_store ga l)
    (Asg l a) (depth (Asg l a)).
Proof.
  intros El Ea k m q p al st L K1 K2 H Q. rewrite inner_asg in *. cbn [eval depth] in *.
  rewrite laid_app in L. destruct L as (L1 & L2). rewrite laid_app in L2. destruct L2 as (L2 & L3). rewrite !size_app in *.
  pose proof (size_nonneg (GenL l n1)). pose proof (size_nonneg (emit_store ga l)). pose proof (size_nonneg (Gen Value a n2)). pose proof (depth_nonneg a).
  pose proof (size_nonneg (if is_cell l then [PUSH_PRI] ++ Gen Value a n2 ++ [POP_ALT] else Gen Value a n2)).
  apply (r_bind q) with (P := located l q (k + size (GenL l n1))); [lia|apply El; auto; lia|].
  intros x st1 m1 c1 (p1 & a1 & -> & R) Hh1 O1.
  destruct l as [y|r sz i]; cbn [is_cell] in *.
  - apply (r_bind q) with (P := result q (k + size (GenL (LVar y) n1) + size (Gen Value a n2))); [lia|apply Ea; auto; lia|].
    intros v st2 m2 c2 (V & a2 & ->) Hh2 O2. rewrite !Z.add_assoc. eapply r_store; eauto; lia.
  - szs. apply (r_pushed q (Gen Value a n2) a (depth a)); auto; try lia; [now apply cell_i32 in R|].
    intros v st2 m2 _ V Hh2 O2.
    eapply r_post; [eapply r_store; [rewrite <- !Z.add_assoc; rewrite <- !Z.add_assoc in L3; exact L3|lia|lia|exact Hh2|lia|exact R|exact V]|].
    intros w m3 c3 R3. eapply result_eq; [|exact R3]. lia.
Qed.
(* The value of a cell, its address left on the stack. *)
Lemma go_load_cell r sz i x k m q p a st : Laid k [PUSH_PRI] -> Laid (k + 1) (rvalue glab (LCell r sz i)) -> 0 <= k -> k + 2 <= ncells ->
  Holds st m -> hp s0 + 4 < q <= sp s0 -> reach_l (LCell r sz i) x p ->
  Gets (At m q k p a) (At (store32 m (q - 4) p) (q - 4) (k + 2) (st x) a) /\
  Holds st (store32 m (q - 4) p) /\ load32 (store32 m (q - 4) p) (q - 4) = p /\ Only q m (store32 m (q - 4) p).
Proof.
  intros L1 L2 K1 K2 H Q R. apply laid1 in L1 as [C1 _]; [|now apply op_i32].
  assert (H' : Holds st (store32 m (q - 4) p)) by (apply holds_push; auto; lia).
  split; [|split; [exact H'|split; [rewrite load32_store32_same; apply wrap32_id; now apply cell_i32 in R|apply only_push; lia]]].
  eapply gets_trans; [apply go_push; auto; lia|]. replace (k + 2) with (k + 1 + size (rvalue glab (LCell r sz i))) by (cbn [rvalue]; rewrite sz1; lia).
  apply (go_rvalue (LCell r sz i) x); auto; try lia. cbn [rvalue]. rewrite sz1. lia.
Qed.
Lemma v_asgop l op a n1 n2 : accepted a -> locates (GenL l n1) l (ldepth l) -> evaluates (Gen Value a n2) a (depth a) ->
  evaluates (GenL l n1 ++ (if is_cell l then [PUSH_PRI] else []) ++ rvalue glab l ++
          inner (Some op) false None (konst a) (Gen Value a n2) ++
          (if is_cell l then [POP_ALT] else []) ++ emit_store ga l)
    (AsgOp l op a) (depth (AsgOp l op a)).
Proof.
  intros Aa El Ea k m q p al st L K1 K2 H Q. cbn [eval depth] in *. cbv zeta.
  rewrite !laid_app in L. destruct L as (L1 & L2 & L3 & L4 & L5 & L6). rewrite !size_app in *.
  set (inn := inner (Some op) false None (konst a) (Gen Value a n2)) in *.
  pose proof (size_nonneg (GenL l n1)). pose proof (size_nonneg (emit_store ga l)). pose proof (depth_nonneg a).
  pose proof (size_nonneg inn). pose proof (size_nonneg (rvalue glab l)). pose proof (size_nonneg (if is_cell l then [PUSH_PRI] else [])). pose proof (size_nonneg (if is_cell l then [POP_ALT] else [])).
  apply (r_bind q) with (P := located l q (k + size (GenL l n1))); [lia|apply El; auto; lia|].
  intros x st1 m1 c1 (p1 & a1 & -> & R) Hh1 O1. pose proof (holds_i32 st1 m1 x Hh1 (proj1 R)) as X.
  destruct l as [y|r sz i]; cbn [is_cell] in *.
  - cbn [size] in *. rewrite ?Z.add_0_r, ?Z.add_0_l in *.
    eapply r_go0; [apply (go_rvalue (LVar y) x m1 q _ p1 a1 st1); auto; lia|].
    apply (r_inner q op None a n2 (depth a)); auto; try (fold inn; lia).
    intros v w st2 m2 a2 _ Y Me V Sw Hh2 O2. fold inn.
    eapply r_post; [eapply (r_store (LVar y) x); [exact L6|lia|lia|exact Hh2|lia|exact R|exact V]|].
    intros w2 m3 c3 R3. eapply result_eq; [|exact R3]. lia.
  - change (size (rvalue glab (LCell r sz i))) with 1 in *. szs.
    destruct (go_load_cell r sz i x _ m1 q p1 a1 st1 L2 L3 ltac:(lia) ltac:(lia) Hh1 ltac:(lia) R) as (G & Hg & T & Og).
    eapply r_go; [exact G|exact Og|].
    replace (k + size (GenL (LCell r sz i) n1) + 1 + 1) with (k + size (GenL (LCell r sz i) n1) + 2) in * by lia.
    apply (r_inner q op None a n2 (depth a)); auto; try (fold inn; lia).
    intros v w st2 m2 a2 _ Y Me V Sw Hh2 O2. fold inn.
    apply laid1 in L5 as [C5 _]; [|now apply op_i32].
    eapply r_go0; [apply go_pop_alt4; auto; lia|].
    rewrite (only_temp _ _ _ O2), T by lia.
    eapply r_post; [eapply (r_store (LCell r sz i) x); [exact L6|lia|lia|exact Hh2|lia|exact R|exact V]|].
    intros w2 m3 c3 R3. eapply result_eq; [|exact R3]. lia.
Qed.
Lemma v_inc l (up pre : bool) n : locates (GenL l n) l (ldepth l) ->
  evaluates (GenL l n ++ (if is_cell l then [PUSH_PRI] else []) ++ rvalue glab l ++
          (if pre then [PUSH_PRI] else []) ++ [Emit [if up then 107 else 112]] ++
          (if is_cell l then [POP_ALT] else []) ++
          (if pre then (if is_cell l then [Emit [132]] else []) ++ emit_store ga l ++ [POP_PRI] else emit_store ga l))
    (Inc l up pre) (depth (Inc l up pre)).
Proof.
  intros El k m q p al st L K1 K2 H Q. cbn [eval depth] in *. cbv zeta.
  rewrite laid_app in L. destruct L as (L1 & L2). rewrite laid_app in L2. destruct L2 as (L2 & L3). rewrite laid_app in L3. destruct L3 as (L3 & L4).
  rewrite laid_app in L4. destruct L4 as (L4 & L5). rewrite laid_app in L5. destruct L5 as (L5 & L6). rewrite laid_app in L6. destruct L6 as (L6 & L7).
  apply laid1 in L5 as [C5 _]; [|destruct up; now apply op_i32].
  pose proof (size_nonneg (GenL l n)). pose proof (size_nonneg (emit_store ga l)). pose proof (size_nonneg (rvalue glab l)). pose proof (ldepth_nonneg l).
  assert (K2' : k + size (GenL l n) + size (if is_cell l then [PUSH_PRI] else []) + size (rvalue glab l) + size (if pre then [PUSH_PRI] else []) + 1 + size (if is_cell l then [POP_ALT] else []) +
    size (if pre then (if is_cell l then [Emit [132]] else []) ++ emit_store ga l ++ [POP_PRI] else emit_store ga l) < ncells).
  { rewrite !size_app in K2. change (size [Emit [if up then 107 else 112]]) with 1 in K2. lia. }
  assert (KE : k + size (GenL l n) + size (if is_cell l then [PUSH_PRI] else []) + size (rvalue glab l) + size (if pre then [PUSH_PRI] else []) + 1 + size (if is_cell l then [POP_ALT] else []) +
    size (if pre then (if is_cell l then [Emit [132]] else []) ++ emit_store ga l ++ [POP_PRI] else emit_store ga l) =
    k + size (GenL l n ++ (if is_cell l then [PUSH_PRI] else []) ++ rvalue glab l ++
          (if pre then [PUSH_PRI] else []) ++ [Emit [if up then 107 else 112]] ++
          (if is_cell l then [POP_ALT] else []) ++
          (if pre then (if is_cell l then [Emit [132]] else []) ++ emit_store ga l ++ [POP_PRI] else emit_store ga l))).
  { rewrite !size_app. change (size [Emit [if up then 107 else 112]]) with 1. lia. }
  change (size [Emit [if up then 107 else 112]]) with 1 in *. rewrite <- KE. clear K2 KE. rename K2' into K2.
  pose proof (size_nonneg (if pre then [PUSH_PRI] else [])). pose proof (size_nonneg (if is_cell l then [PUSH_PRI] else [])). pose proof (size_nonneg (if is_cell l then [POP_ALT] else [])).
  pose proof (size_nonneg (if pre then (if is_cell l then [Emit [132]] else []) ++ emit_store ga l ++ [POP_PRI] else emit_store ga l)).
  apply (r_bind q) with (P := located l q (k + size (GenL l n))); [lia|apply El; auto; lia|].
  intros x st1 m1 c1 (p1 & a1 & -> & R) Hh1 O1. pose proof (holds_i32 st1 m1 x Hh1 (proj1 R)) as X.
  set (old := st1 x) in *. set (new := wrap32 (if up then old + 1 else old - 1)) in *.
  assert (N : is_i32 new) by apply wrap32_range.
  destruct l as [y|r sz i]; cbn [is_cell] in *.
  - cbn [size app] in *. rewrite ?Z.add_0_r in *.
    eapply r_go0; [apply (go_rvalue (LVar y) x m1 q _ p1 a1 st1); auto; lia|]. fold old.
    destruct pre.
    + apply laid1 in L4 as [C4 _]; [|now apply op_i32]. rewrite laid_app in L7. destruct L7 as (L7 & L8). szs. apply laid1 in L8 as [C8 _]; [|now apply op_i32].
      set (m2 := store32 m1 (q - 4) old).
      assert (Hg : Holds st1 m2) by (apply holds_push; auto; lia).
      eapply (r_go m2); [apply go_push; auto; lia|apply only_push; lia|]. fold m2.
      eapply r_go0; [apply (go_inc m2 (q - 4) _ old a1 up); auto; lia|]. fold new.
      eapply r_go; [apply (go_store (LVar y) x m2 (q - 4) _ new a1 st1); auto; lia|apply only_store, R|].
      eapply r_go0; [apply go_pop_pri4; auto; lia|].
      assert (T : load32 (store32 m2 (Adr x) new) (q - 4) = old).
      { rewrite load32_store32_other. - unfold m2. rewrite load32_store32_same. now apply wrap32_id.
        - pose proof (live_reach x (proj1 R)) as (? & ? & ?). lia. }
      rewrite T. apply r_val; [|apply holds_update; auto; apply R]. split; [exact X|]. exists a1. f_equal. lia.
    + eapply r_go0; [apply (go_inc m1 q _ old a1 up); cbn [size] in *; rewrite ?Z.add_0_r in *; auto; lia|]. fold new.
      cbn [size] in *. rewrite ?Z.add_0_r in *.
      eapply r_post; [eapply (r_store (LVar y) x _ m1 q) with (1 := L7); auto; lia|]. auto.
  - change (size (rvalue glab (LCell r sz i))) with 1 in *. change (size (emit_store ga (LCell r sz i))) with 1 in *. szs.
    destruct (go_load_cell r sz i x _ m1 q p1 a1 st1 L2 L3 ltac:(lia) ltac:(lia) Hh1 ltac:(lia) R) as (G & Hg & T & Og).
    fold old in G. set (m2 := store32 m1 (q - 4) p1) in *.
    replace (k + size (GenL (LCell r sz i) n) + 1 + 1) with (k + size (GenL (LCell r sz i) n) + 2) in * by lia.
    eapply r_go; [exact G|exact Og|]. apply laid1 in L6 as [C6 _]; [|now apply op_i32].
    destruct pre.
    + rewrite !size_app in *. change (size [Emit [132]]) with 1 in *. change (size (emit_store ga (LCell r sz i))) with 1 in *. szs.
      rewrite !laid_app in L7. destruct L7 as (L7 & L8 & L9). change (size [Emit [132]]) with 1 in *. change (size (emit_store ga (LCell r sz i))) with 1 in *.
      apply laid1 in L4 as [C4 _]; [|now apply op_i32]. apply laid1 in L7 as [C7 _]; [|now apply op_i32]. apply laid1 in L9 as [C9 _]; [|now apply op_i32].
      set (m3 := store32 m2 (q - 4 - 4) old).
      assert (Hg3 : Holds st1 m3) by (apply holds_push; auto; lia).
      assert (T3 : load32 m3 (q - 4 - 4) = old) by (unfold m3; rewrite load32_store32_same; now apply wrap32_id).
      assert (T4 : load32 m3 (q - 4) = p1) by (unfold m3; rewrite load32_store32_other by lia; exact T).
      eapply (r_go m3); [apply go_push; auto; lia|apply (only_mono (q - 4)); [lia|apply only_push; lia]|]. fold m3.
      eapply r_go0; [apply (go_inc m3 (q - 4 - 4) _ old a1 up); auto; lia|]. fold new.
      eapply r_go0; [apply go_pop_alt4; auto; lia|]. rewrite T3.
      set (m4 := store32 m3 (q - 4) old).
      assert (Hg4 : Holds st1 m4) by (apply holds_push; auto; lia).
      eapply (r_go m4); [apply go_swap_alt; auto; lia|apply only_push; lia|]. fold m4. rewrite T4.
      eapply r_go; [apply (go_store (LCell r sz i) x m4 (q - 4) _ new p1 st1); auto; change (size (emit_store ga (LCell r sz i))) with 1; lia|apply only_store, R|].
      change (size (emit_store ga (LCell r sz i))) with 1.
      eapply r_go0; [apply go_pop_pri4; auto; lia|].
      assert (T5 : load32 (store32 m4 (Adr x) new) (q - 4) = old).
      { rewrite load32_store32_other. - unfold m4. rewrite load32_store32_same. now apply wrap32_id.
        - pose proof (live_reach x (proj1 R)) as (? & ? & ?). lia. }
      rewrite T5. apply r_val; [|apply holds_update; auto; apply R]. split; [exact X|]. exists p1. f_equal. lia.
    + cbn [size] in *. rewrite ?Z.add_0_r in *.
      eapply r_go0; [apply (go_inc m2 (q - 4) _ old a1 up); auto; lia|]. fold new.
      eapply r_go0; [apply go_pop_alt4; auto; lia|]. rewrite T.
      eapply r_post; [eapply (r_store (LCell r sz i) x _ m2 q) with (1 := L7); auto; change (size (emit_store ga (LCell r sz i))) with 1; lia|].
      intros w2 m5 c5 R5. eapply result_eq; [|exact R5]. change (size (emit_store ga (LCell r sz i))) with 1. lia.
Qed.

(* ---- Chains ---- *)
Definition links (g : list aop) (kl : option Z) (c : chain) (d : Z) : Prop :=
  forall k m q acc x a st, Laid k g -> 0 <= k -> k + size g < ncells -> Holds st m -> hp s0 + 4 * d < q <= sp s0 ->
  is_i32 x -> match kl with Some y => y = x | None => a = x end ->
  reaches m (At m q k (truth acc) a) q (evchain sc (truth acc) x c st) (result q (k + size g)).
Lemma ordering_swaps op : ordering op = true -> swaps op = true. Proof. destruct op; reflexivity || discriminate. Qed.
Lemma c_end kl n d : links (GenC kl CEnd n) kl CEnd d.
Proof.
  intros k m q acc x a st L K1 K2 H Q X E. cbn [evchain gen_chain size] in *. apply r_val; [|exact H].
  split; [apply truth_range|]. exists a. f_equal. lia.
Qed.
Lemma c_more kl op e rest n1 n2 : ordering op = true -> accepted e -> evaluates (Gen Value e n1) e (depth e) ->
  links (GenC (konst e) rest n2) (konst e) rest (cdepth rest) ->
  links ([PUSH_PRI] ++ [Emit [33]] ++ inner (Some op) false kl (konst e) (Gen Value e n1) ++
      [Emit [132]] ++ [Emit [81]] ++ [POP_ALT] ++ GenC (konst e) rest n2) kl (CMore op e rest) (cdepth (CMore op e rest)).
Proof.
  intros Or Ae Ee Er k m q acc x a st L K1 K2 H Q X E. cbn [evchain cdepth] in *.
  rewrite !laid_app in L. destruct L as (L1 & L2 & L3 & L4 & L5 & L6 & L7). szs.
  set (inn := inner (Some op) false kl (konst e) (Gen Value e n1)) in *.
  pose proof (size_nonneg inn). pose proof (size_nonneg (GenC (konst e) rest n2)). pose proof (depth_nonneg e). pose proof (cdepth_nonneg rest).
  apply laid1 in L1 as [C1 _]; [|now apply op_i32]. apply laid1 in L2 as [C2 _]; [|now apply op_i32].
  apply laid1 in L4 as [C4 _]; [|now apply op_i32]. apply laid1 in L5 as [C5 _]; [|now apply op_i32]. apply laid1 in L6 as [C6 _]; [|now apply op_i32].
  set (m2 := store32 m (q - 4) (truth acc)).
  assert (Hg : Holds st m2) by (apply holds_push; auto; lia).
  assert (T : load32 m2 (q - 4) = truth acc) by (unfold m2; rewrite load32_store32_same; apply wrap32_id, truth_range).
  eapply (r_go m2); [apply go_push; auto; lia|apply only_push; lia|]. fold m2.
  eapply r_go0; [apply go_move; auto; lia|].
  apply (r_inner q op kl e n1 (depth e)); auto; try (fold inn; lia).
  intros y v st3 m3 a3 Ev Y Me V Sw Hh3 O3. fold inn. rewrite (Sw (ordering_swaps op Or)).
  pose proof (only_temp _ _ _ O3 ltac:(lia) ltac:(lia)) as T3. rewrite T in T3.
  set (m4 := store32 m3 (q - 4) y).
  assert (Hg4 : Holds st3 m4) by (apply holds_push; auto; lia).
  assert (T4 : load32 m4 (q - 4) = y) by (unfold m4; rewrite load32_store32_same; now apply wrap32_id).
  eapply (r_go m4); [apply go_swap_alt; auto; lia|apply only_push; lia|]. fold m4. rewrite T3.
  eapply r_go0; [apply go_and; auto; lia|].
  eapply r_go0; [apply go_pop_alt4; auto; lia|]. rewrite T4.
  assert (Bv : Z.land v (truth acc) = truth (negb (truth acc =? 0) && negb (v =? 0))).
  { rewrite link_means in Me by exact Or. injection Me as <-. destruct acc, (link op x y); reflexivity. }
  rewrite Bv.
  eapply r_post; [eapply Er; [exact L7|lia|lia|exact Hg4|lia|exact Y|]|].
  - destruct (konst e) as [w|] eqn:Ke; [|reflexivity].
    destruct (konst_val sc e w Ae Ke) as [_ Ev']. rewrite Ev' in Ev. now injection Ev.
  - intros w2 m5 c5 R5. eapply result_eq; [|exact R5]. lia.
Qed.

Lemma v_chain a op b rest n1 n2 n3 : ordering op = true -> accepted a -> accepted b ->
  evaluates (Gen Value a n1) a (depth a) -> evaluates (Gen Value b n2) b (depth b) ->
  links (GenC (konst b) rest n3) (konst b) rest (cdepth rest) ->
  evaluates (Gen Value a n1 ++ inner (Some op) false (konst a) (konst b) (Gen Value b n2) ++ GenC (konst b) rest n3)
    (Chain a op b rest) (depth (Chain a op b rest)).
Proof.
  intros Or Aa Ab Ea Eb Er k m q p al st L K1 K2 H Q. cbn [eval depth] in *. rewrite !laid_app in L. destruct L as (L1 & L2 & L3).
  rewrite !size_app in *. set (inn := inner (Some op) false (konst a) (konst b) (Gen Value b n2)) in *.
  pose proof (size_nonneg (Gen Value a n1)). pose proof (size_nonneg inn). pose proof (size_nonneg (GenC (konst b) rest n3)).
  pose proof (depth_nonneg b).
  apply (r_bind_eq q) with (P := result q (k + size (Gen Value a n1))); [lia|apply Ea; auto; lia|].
  intros x st1 m1 c1 Ev1 (X & a1 & ->) Hh1 O1.
  apply (r_inner q op (konst a) b n2 (depth b)); auto; try (fold inn; lia).
  { destruct (konst a) as [w|] eqn:Ka; [|reflexivity]. destruct (konst_val sc a w Aa Ka) as [_ Ev']. rewrite Ev' in Ev1. now injection Ev1. }
  intros y v st2 m2 a2 Ev2 Y Me V Sw Hh2 O2. fold inn. rewrite (Sw (ordering_swaps op Or)).
  rewrite link_means in Me by exact Or. injection Me as <-.
  eapply r_post; [eapply Er; [exact L3|lia|lia|exact Hh2|lia|exact Y|]|].
  - destruct (konst b) as [w|] eqn:Kb; [|reflexivity]. destruct (konst_val sc b w Ab Kb) as [_ Ev']. rewrite Ev' in Ev2. now injection Ev2.
  - intros w2 m5 c5 R5. eapply result_eq; [|exact R5]. lia.
Qed.

(* ---- Tests ---- *)
Definition lands (md : mode) (ke v : Z) (k : Z) : Prop :=
  match eff md with
  | None => k = ke
  | Some (jot, t) => if Bool.eqb (negb (v =? 0)) jot then wh t = 4 * k else k = ke
  end.
Definition fin (c : config) (md : mode) (q ke v : Z) (m' : Z -> Z) (c' : config) : Prop :=
  is_i32 v /\ exists k p' a', c' = At m' q k p' a' /\ lands md ke v k /\ match eff md with None => p' = v | Some _ => strictly c c' end.
Definition mode_ok (md : mode) (ke : Z) : Prop :=
  match md with
  | Value => True
  | Test _ t => good t
  | Seq _ _ t ft last => good t /\ good ft /\ (last = true -> wh ft = 4 * ke)
  end.
Definition does_mode (md : mode) (g : list aop) (e : expr) (d : Z) : Prop :=
  forall k m q p a st, Laid k g -> 0 <= k -> k + size g < ncells -> Holds st m -> hp s0 + 4 * d < q <= sp s0 ->
  mode_ok md (k + size g) -> reaches m (At m q k p a) q (eval sc e st) (fin (At m q k p a) md q (k + size g)).
Lemma value_mode g e d : does_mode Value g e d <-> evaluates g e d.
Proof.
  split; intros E k m q p a st L K1 K2 H Q.
  - eapply r_post; [apply E; auto; exact Logic.I|]. intros v m' c' (V & k' & p' & a' & -> & Ln & Pv). cbn [eff lands] in *.
    split; [exact V|]. exists a'. rewrite Pv. unfold lands in Ln. cbn [eff] in Ln. now rewrite Ln.
  - intros _. eapply r_post; [apply E; auto|]. intros v m' c' (V & a' & ->). split; [exact V|]. exists (k + size g), v, a'.
    split; [reflexivity|]. split; reflexivity.
Qed.
Lemma eff_good md ke jot t : mode_ok md ke -> eff md = Some (jot, t) -> good t.
Proof.
  destruct md as [|j t'|op j t' ft last]; cbn [mode_ok eff]; [discriminate|intros G [= _ <-]; exact G|].
  intros (G1 & G2 & _). destruct last; [intros [= _ <-]; exact G1|]. destruct op; intros [= _ <-]; destruct j; assumption.
Qed.
Lemma t_default md jot t g e d : eff md = Some (jot, t) -> evaluates g e d ->
  does_mode md (g ++ [EmitLabel (if jot then 54 else 53) t]) e d.
Proof.
  intros Ef E k m q p a st L K1 K2 H Q MO. rewrite laid_app in L. destruct L as [L1 L2]. szs.
  destruct (eff_good _ _ _ _ MO Ef) as (kt & T & B). pose proof (size_nonneg g).
  eapply r_post; [apply (r_last m _ q _ (result q (k + size g)) (fun v m' c2 => is_i32 v /\ exists a', c2 = At m' q (if eval_cmp (if jot then NotZero else Zero) v a' then kt else k + size g + 2) v a')); [apply E; auto; lia|]|].
  { intros v m1 c1 (V & a1 & ->). eexists. split; [|split; [exact V|exists a1; reflexivity]].
    apply (step_jcmp m1 q _ v a1 (if jot then 54 else 53) (if jot then NotZero else Zero) _ _ L2 ltac:(lia) ltac:(lia) T B); destruct jot; cbn [In]; auto. }
  intros v m1 c1 ((V & a1 & ->) & St). split; [exact V|]. eexists _, v, a1. split; [reflexivity|].
  unfold lands. rewrite Ef. split; [|exact St].
  destruct jot; cbn [eval_cmp]; destruct (v =? 0); cbn [negb Bool.eqb]; first [exact T|lia].
Qed.
Definition cmp_of (op : binop) : cmpop :=
  match op with BGe => Sgeq | BLe => Sleq | BLt => Sless | BGt => Sgrtr | BEq => Eq | _ => Neq end.
Lemma cmp_in op : is_compare op = true ->
  In (cmp_jump op, cmp_of op) [(53, Zero); (54, NotZero); (55, Eq); (56, Neq); (61, Sless); (62, Sleq); (63, Sgrtr); (64, Sgeq)].
Proof. destruct op; try discriminate; intros _; cbn [cmp_jump cmp_of In]; auto 10. Qed.
Lemma is_compare_negate op : is_compare op = true -> is_compare (negate op) = true. Proof. destruct op; auto. Qed.
Lemma cmp_eval op x y : is_compare op = true -> means op x y = OVal (truth (eval_cmp (cmp_of op) x y)).
Proof.
  destruct op; try discriminate; intros _; cbn [means cmp_of eval_cmp]; rewrite ?Z.geb_leb, ?Z.gtb_ltb; reflexivity.
Qed.
Lemma negate_eval op x y : is_compare op = true -> eval_cmp (cmp_of (negate op)) x y = negb (eval_cmp (cmp_of op) x y).
Proof. destruct op; try discriminate; intros _; cbn [negate cmp_of eval_cmp]; lia. Qed.
Lemma t_compare md (jot : bool) t op a b n1 n2 : eff md = Some (jot, t) -> is_compare op = true ->
  evaluates (Gen Value a n1) a (depth a) -> evaluates (Gen Value b n2) b (depth b) ->
  does_mode md (Gen Value a n1 ++ [PUSH_PRI] ++ Gen Value b n2 ++ [POP_ALT] ++ [Emit [35]] ++
            [EmitLabel (cmp_jump (if jot then op else negate op)) t]) (Bin op a b) (depth (Bin op a b)).
Proof.
  intros Ef Co Ea Eb k m q p al st L K1 K2 H Q MO. cbn [eval depth] in *.
  rewrite !laid_app in L. destruct L as (L1 & L2 & L3 & L4 & L5 & L6). szs.
  destruct (eff_good _ _ _ _ MO Ef) as (kt & T & B).
  pose proof (size_nonneg (Gen Value a n1)). pose proof (size_nonneg (Gen Value b n2)). pose proof (depth_nonneg b).
  assert (Co' : is_compare (if jot then op else negate op) = true) by (destruct jot; auto using is_compare_negate).
  set (kj := k + size (Gen Value a n1) + 1 + size (Gen Value b n2) + 1 + 1).
  eapply r_post; [apply (r_last m _ q _ (fun v m' c' => exists x y, v = truth (eval_cmp (cmp_of op) x y) /\ c' = At m' q kj x y)
    (fun v m' c2 => exists x y, v = truth (eval_cmp (cmp_of op) x y) /\ c2 = At m' q (if eval_cmp (cmp_of (if jot then op else negate op)) x y then kt else kj + 2) x y))|].
  - apply (r_bind q) with (P := result q (k + size (Gen Value a n1))); [lia|apply Ea; auto; lia|].
    intros x st1 m1 c1 (X & a1 & ->) Hh1 O1.
    apply (r_pushed q (Gen Value b n2) b (depth b)); auto; try lia.
    { rewrite !laid_app. auto. }
    intros y st2 m2 _ Y Hh2 O2. apply laid1 in L5 as [C5 _]; [|now apply op_i32].
    unfold operate. rewrite cmp_eval by exact Co. cbn [andthen].
    eapply r_go0; [apply go_xchg; auto; lia|].
    apply r_val; [|exact Hh2]. exists x, y. split; [reflexivity|]. unfold kj. f_equal.
  - intros v m2 c2 (x & y & -> & ->). eexists. split; [|exists x, y; split; reflexivity].
    apply (step_jcmp m2 q kj x y (cmp_jump (if jot then op else negate op)) _ t kt); [|lia|lia|exact T|exact B|exact (cmp_in _ Co')].
    replace kj with (k + size (Gen Value a n1) + 1 + size (Gen Value b n2) + 1 + 1) by lia. exact L6.
  - intros v m2 c2 ((x & y & -> & ->) & St). split; [apply truth_range|]. eexists _, x, y. split; [reflexivity|].
  unfold lands. rewrite Ef, truth_nz. split; [|exact St].
  destruct jot; rewrite ?negate_eval by exact Co; destruct (eval_cmp (cmp_of op) x y); cbn [negb Bool.eqb]; first [exact T|lia].
Qed.
Lemma t_not md jot t g a d : eff md = Some (jot, t) -> does_mode (Test (negb jot) t) g a d -> does_mode md g (Un UNot a) d.
Proof.
  intros Ef E k m q p al st L K1 K2 H Q MO. cbn [eval].
  apply (r_bind q) with (P := fin (At m q k p al) (Test (negb jot) t) q (k + size g)); [lia|apply E; auto; exact (eff_good _ _ _ _ MO Ef)|].
  intros v st1 m1 c1 (V & k1 & p1 & a1 & -> & Ln & St) Hh1 O1. apply r_val; [|exact Hh1].
  split; [apply umeans_range; exact V|]. exists k1, p1, a1. split; [reflexivity|]. unfold lands in *. rewrite Ef. cbn [eff umeans] in *.
  split; [|exact St]. rewrite truth_nz. destruct (v =? 0), jot; exact Ln.
Qed.
Lemma t_comma md jot t a b n1 g : eff md = Some (jot, t) -> evaluates (Gen Value a n1) a (depth a) -> does_mode (Test jot t) g b (depth b) ->
  does_mode md (Gen Value a n1 ++ g) (Comma a b) (depth (Comma a b)).
Proof.
  intros Ef Ea Eb k m q p al st L K1 K2 H Q MO. cbn [eval depth] in *. rewrite laid_app in L. destruct L as [L1 L2]. rewrite size_app in *.
  pose proof (size_nonneg (Gen Value a n1)). pose proof (size_nonneg g).
  apply (r_bind_g q) with (P := result q (k + size (Gen Value a n1))); [lia|apply Ea; auto; lia|].
  intros x st' m' c' G (X & a' & ->) H' O. rewrite Z.add_assoc in *.
  eapply r_post; [apply Eb; auto; [lia|lia|exact (eff_good _ _ _ _ MO Ef)]|].
  intros v m2 c2 (V & k2 & p2 & a2 & -> & Ln & St). split; [exact V|]. exists k2, p2, a2. unfold lands in *. rewrite Ef.
  split; [reflexivity|]. split; [exact Ln|exact (gets_strictly _ _ _ G St)].
Qed.

(* Two elements of a sequence: what the pair lands on. *)
Lemma r_seq op jot t ft last a b ga_ gb k m q p al st : let md := Seq op jot t ft last in
  does_mode (Seq op jot t ft false) ga_ a (depth a) -> does_mode md gb b (depth b) ->
  Laid k (ga_ ++ gb) -> 0 <= k -> k + size (ga_ ++ gb) < ncells -> Holds st m -> hp s0 + 4 * Z.max (depth a) (depth b) < q <= sp s0 ->
  mode_ok md (k + size (ga_ ++ gb)) ->
  reaches m (At m q k p al) q (eval sc (Log op a b) st) (fin (At m q k p al) md q (k + size (ga_ ++ gb))).
Proof.
  intros md Ea Eb L K1 K2 H Q MO. rewrite laid_app in L. destruct L as [L1 L2]. rewrite size_app in *.
  pose proof (size_nonneg ga_). pose proof (size_nonneg gb). destruct MO as (G1 & G2 & FT).
  assert (BR : forall m1 st1 k1 p1 a1 x, Holds st1 m1 -> is_i32 x -> lands (Seq op jot t ft false) (k + size ga_) x k1 ->
    strictly (At m q k p al) (At m1 q k1 p1 a1) ->
    reaches m1 (At m1 q k1 p1 a1) q (match op with
      | LOr => if x =? 0 then (LET y @ st := eval sc b st1 IN Val (truth (negb (y =? 0))) st) else Val 1 st1
      | LAnd => if x =? 0 then Val 0 st1 else (LET y @ st := eval sc b st1 IN Val (truth (negb (y =? 0))) st) end)
      (fin (At m q k p al) md q (k + (size ga_ + size gb)))).
  { intros m1 st1 k1 p1 a1 x Hh1 X Ln St1.
    assert (EN : eff md <> None) by (unfold md; cbn [eff]; destruct last; [discriminate|]; destruct op; discriminate).
    assert (ST : forall c2 v, strictly (At m q k p al) c2 -> match eff md with None => v | Some _ => strictly (At m q k p al) c2 end) by (intros c2 v X2; destruct (eff md); [exact X2|contradiction EN; reflexivity]).
    assert (R2 : k1 = k + size ga_ -> reaches m1 (At m1 q k1 p1 a1) q (LET y @ st := eval sc b st1 IN Val (truth (negb (y =? 0))) st)
      (fin (At m q k p al) md q (k + (size ga_ + size gb)))).
    { intros ->. apply (r_bind_g q) with (P := fin (At m1 q (k + size ga_) p1 a1) md q (k + size ga_ + size gb)); [lia|apply Eb; auto; try lia|].
      - split; [exact G1|split; [exact G2|]]. now rewrite <- Z.add_assoc.
      - intros y st2 m2 c2 G2' (Y & k2 & p2 & a2 & -> & Ln2 & _) Hh2 O2. apply r_val; [|exact Hh2]. split; [apply truth_range|].
        exists k2, p2, a2. split; [reflexivity|]. unfold lands in *. unfold md in *. rewrite Z.add_assoc. rewrite truth_nz.
        split; [exact Ln2|]. apply ST. exact (strictly_gets _ _ _ St1 G2'). }
    unfold lands in Ln. cbn [eff] in Ln. destruct op; destruct (x =? 0) eqn:Xz; cbn [negb Bool.eqb] in Ln.
    - exact (R2 Ln).
    - apply r_val; [|exact Hh1]. split; [apply op_i32; reflexivity|]. exists k1, p1, a1. split; [reflexivity|]. split; [|now apply ST].
      unfold lands, md. cbn [eff]. destruct last; cbn [Z.eqb negb]; destruct jot; cbn [Bool.eqb]; try exact Ln.
      rewrite (FT eq_refl) in Ln. lia.
    - apply r_val; [|exact Hh1]. split; [apply op_i32; reflexivity|]. exists k1, p1, a1. split; [reflexivity|]. split; [|now apply ST].
      unfold lands, md. cbn [eff]. destruct last; cbn [Z.eqb negb]; destruct jot; cbn [Bool.eqb]; try exact Ln.
      rewrite (FT eq_refl) in Ln. lia.
    - exact (R2 Ln). }
  assert (MA : mode_ok (Seq op jot t ft false) (k + size ga_)) by (split; [exact G1|split; [exact G2|discriminate]]).
  assert (RA : reaches m (At m q k p al) q (eval sc a st) (fin (At m q k p al) (Seq op jot t ft false) q (k + size ga_))) by (apply Ea; auto; lia).
  destruct op; cbn [eval]; (eapply (r_bind q); [lia|exact RA|]);
  intros x st1 m1 c1 (X & k1 & p1 & a1 & -> & Ln & St1) Hh1 O1; apply BR; auto;
  cbn [eff] in St1; exact St1.
Qed.
Lemma t_seq op jot t ft last a b n1 n2 :
  does_mode (Seq op jot t ft false) (Gen (Seq op jot t ft false) a n1) a (depth a) ->
  does_mode (Seq op jot t ft last) (Gen (Seq op jot t ft last) b n2) b (depth b) ->
  does_mode (Seq op jot t ft last) (Gen (Seq op jot t ft false) a n1 ++ Gen (Seq op jot t ft last) b n2) (Log op a b) (depth (Log op a b)).
Proof. intros Ea Eb k m q p al st L K1 K2 H Q MO. cbn [depth] in Q. now apply r_seq. Qed.
Lemma t_log md op jot t n a b n1 n2 : eff md = Some (jot, t) ->
  does_mode (Seq op jot t n false) (Gen (Seq op jot t n false) a n1) a (depth a) ->
  does_mode (Seq op jot t n true) (Gen (Seq op jot t n true) b n2) b (depth b) ->
  does_mode md (Gen (Seq op jot t n false) a n1 ++ Gen (Seq op jot t n true) b n2 ++ [Bind n]) (Log op a b) (depth (Log op a b)).
Proof.
  intros Ef Ea Eb k m q p al st L K1 K2 H Q MO. cbn [depth] in Q. rewrite app_assoc in L, K2, MO |- *. rewrite laid_app in L. destruct L as [L1 L2]. apply laid_bind in L2 as [W _].
  rewrite (size_app (Gen (Seq op jot t n false) a n1 ++ Gen (Seq op jot t n true) b n2)), szb, Z.add_0_r in *.
  eapply r_post; [apply (r_seq op jot t n true a b _ _ k m q p al st Ea Eb L1 K1 K2 H Q)|].
  - split; [exact (eff_good _ _ _ _ MO Ef)|]. split; [|auto]. eexists. split; [exact W|].
    pose proof (size_nonneg (Gen (Seq op jot t n false) a n1 ++ Gen (Seq op jot t n true) b n2)). lia.
  - intros v m2 c2 (V & k2 & p2 & a2 & -> & Ln & St). split; [exact V|]. exists k2, p2, a2. unfold lands in *. rewrite Ef. cbn [eff] in Ln, St.
    split; [reflexivity|]. split; [exact Ln|exact St].
Qed.
Lemma log_bool op a b st v st' : eval sc (Log op a b) st = Val v st' -> v = truth (negb (v =? 0)).
Proof.
  destruct op; cbn [eval]; destruct (eval sc a st) as [x st1|?|]; cbn [andthen]; try discriminate;
  destruct (x =? 0); try (intros [= <- _]; reflexivity);
  destruct (eval sc b st1) as [y st2|?|]; cbn [andthen]; try discriminate;
  intros [= <- _]; now rewrite truth_nz.
Qed.
Lemma v_log op n a b n1 n2 : let jot := is_or op in
  does_mode (Seq op jot n (n + 2) false) (Gen (Seq op jot n (n + 2) false) a n1) a (depth a) ->
  does_mode (Seq op jot n (n + 2) true) (Gen (Seq op jot n (n + 2) true) b n2) b (depth b) ->
  evaluates (Gen (Seq op jot n (n + 2) false) a n1 ++ Gen (Seq op jot n (n + 2) true) b n2 ++ [Bind (n + 2)] ++
          [Emit (const_pri (b2z (negb jot)))] ++ [EmitLabel 51 (n + 1)] ++ [Bind n] ++ [Emit (const_pri (b2z jot))] ++ [Bind (n + 1)])
    (Log op a b) (depth (Log op a b)).
Proof.
  intros jot Ea Eb k m q p al st L K1 K2 H Q. set (A := Gen (Seq op jot n (n + 2) false) a n1) in *. set (B := Gen (Seq op jot n (n + 2) true) b n2) in *.
  rewrite app_assoc in L, K2 |- *. rewrite !(laid_app (A ++ B)) in L. destruct L as (LAB & L).
  rewrite !(laid_app [_]) in L. destruct L as (L1 & L2 & L3 & L4 & L5 & L6).
  rewrite !(size_app (A ++ B)), !(size_app [_]) in *. rewrite !szb, szl in *.
  set (c0 := const_pri (b2z (negb jot))) in *. set (c1 := const_pri (b2z jot)) in *.
  pose proof (size_nonneg (A ++ B)). pose proof (size_nonneg [Emit c0]). pose proof (size_nonneg [Emit c1]). rewrite !Z.add_0_r in *.
  apply laid_bind in L1 as [W1 _]. apply laid_bind in L4 as [W4 _]. apply laid_bind in L6 as [W6 _].
  rewrite <- (andthen_val (eval sc (Log op a b) st)).
  apply (r_bind_eq q) with (P := fin (At m q k p al) (Seq op jot n (n + 2) true) q (k + size (A ++ B))); [lia|apply (r_seq op jot n (n + 2) true a b _ _ k m q p al st Ea Eb LAB K1 ltac:(lia) H Q)|].
  { split; [eexists; split; [exact W4|lia]|]. split; [eexists; split; [exact W1|lia]|]. intros _. exact W1. }
  intros v st1 m1 cc Ev (V & k1 & p1 & a1 & -> & Ln & _) Hh1 O1.
  apply log_bool in Ev. unfold lands in Ln. cbn [eff] in Ln.
  destruct (Bool.eqb (negb (v =? 0)) jot) eqn:Ej.
  - assert (k1 = k + size (A ++ B) + size [Emit c0] + 2) as -> by lia.
    assert (Vj : b2z jot = v).
    { rewrite Ev, truth_b2z. f_equal. apply Bool.eqb_prop in Ej. congruence. }
    eapply r_go0; [apply (go_const_pri m1 q _ p1 a1 (b2z jot)); [lia|unfold c1 in *; lia|exact L5|rewrite Vj; exact V]|].
    fold c1. rewrite Vj. apply r_val; [|exact Hh1]. split; [exact V|]. exists a1. f_equal. lia.
  - subst k1. assert (Vj : b2z (negb jot) = v).
    { rewrite Ev, truth_b2z. f_equal. destruct (v =? 0), jot; try discriminate Ej; reflexivity. }
    eapply r_go0; [apply (go_const_pri m1 q _ p1 a1 (b2z (negb jot))); [lia|unfold c0 in *; lia|exact L2|rewrite Vj; exact V]|].
    fold c0. rewrite Vj.
    eapply r_go0; [apply (go_jump m1 q _ v a1 _ _ L3 ltac:(lia) ltac:(lia) W6 ltac:(lia))|].
    apply r_val; [|exact Hh1]. split; [exact V|]. exists a1. f_equal. lia.
Qed.

(* ---- The equations of the generator ---- *)
Definition value_of (e : expr) (n : nat) : list aop :=
  match konst e with
  | Some v => [Emit (const_pri v)]
  | None =>
      match e with
      | Num v => [Emit (const_pri v)]
      | Rv l => GenL l n ++ rvalue glab l
      | Un op a => Gen Value a n ++ [Emit (un_code false op)]
      | Bin op a b =>
          (match konst a with Some _ => [] | None => Gen Value a n end) ++
          inner (Some op) false (konst a) (konst b) (Gen Value b (n + nl a))
      | Log op a b =>
          Gen (Seq op (is_or op) n (n + 2) false) a (n + 3) ++ Gen (Seq op (is_or op) n (n + 2) true) b (n + 3 + nl a) ++ [Bind (n + 2)] ++
          [Emit (const_pri (b2z (negb (is_or op))))] ++ [EmitLabel 51 (n + 1)] ++ [Bind n] ++ [Emit (const_pri (b2z (is_or op)))] ++ [Bind (n + 1)]
      | Chain a op b rest =>
          Gen Value a n ++ inner (Some op) false (konst a) (konst b) (Gen Value b (n + nl a)) ++ GenC (konst b) rest (n + nl a + nl b)
      | Tern c a b =>
          Gen Value c (n + 2) ++ [EmitLabel 53 n] ++ Gen Value a (n + 2 + nl c) ++ [EmitLabel 51 (n + 1)] ++ [Bind n] ++
          Gen Value b (n + 2 + nl c + nl a) ++ [Bind (n + 1)]
      | Comma a b => Gen Value a n ++ Gen Value b (n + nl a)
      | Asg l a => GenL l n ++ inner None (negb (is_cell l)) None (konst a) (Gen Value a (n + nll l)) ++ emit_store ga l
      | AsgOp l op a =>
          GenL l n ++ (if is_cell l then [PUSH_PRI] else []) ++ rvalue glab l ++
          inner (Some op) false None (konst a) (Gen Value a (n + nll l)) ++ (if is_cell l then [POP_ALT] else []) ++ emit_store ga l
      | Inc l up pre =>
          GenL l n ++ (if is_cell l then [PUSH_PRI] else []) ++ rvalue glab l ++
          (if pre then [PUSH_PRI] else []) ++ [Emit [if up then 107 else 112]] ++ (if is_cell l then [POP_ALT] else []) ++
          (if pre then (if is_cell l then [Emit [132]] else []) ++ emit_store ga l ++ [POP_PRI] else emit_store ga l)
      end
  end.
Lemma gen_value e n : Gen Value e n = value_of e n. Proof. destruct e; reflexivity. Qed.
Definition test_of (jot : bool) (t : nat) (e : expr) (n : nat) : list aop :=
  match e with
  | Log op a b => Gen (Seq op jot t n false) a (n + 3) ++ Gen (Seq op jot t n true) b (n + 3 + nl a) ++ [Bind n]
  | Un UNot a => Gen (Test (negb jot) t) a n
  | Bin op a b =>
      if is_compare op then
        Gen Value a n ++ [PUSH_PRI] ++ Gen Value b (n + nl a) ++ [POP_ALT] ++ [Emit [35]] ++
        [EmitLabel (cmp_jump (if jot then op else negate op)) t]
      else value_of e n ++ [EmitLabel (if jot then 54 else 53) t]
  | Comma a b => Gen Value a n ++ Gen (Test jot t) b (n + nl a)
  | _ => value_of e n ++ [EmitLabel (if jot then 54 else 53) t]
  end.
Definition same_seq (md : mode) (e : expr) : bool :=
  match md, e with Seq op _ _ _ _, Log op' _ _ => logop_eqb op op' | _, _ => false end.
Lemma gen_test md e n jot t : eff md = Some (jot, t) -> same_seq md e = false -> Gen md e n = test_of jot t e n.
Proof.
  intros Ef S. destruct md as [|j t'|op j t' ft last]; [discriminate| |].
  - injection Ef as <- <-. destruct e; reflexivity.
  - destruct e as [| | | |op' a b| | | | | |];
    try (cbn [gen]; rewrite Ef; reflexivity).
    cbn [same_seq] in S. cbn [gen]. rewrite S, Ef. reflexivity.
Qed.
Lemma gen_seq op jot t ft last a b n : Gen (Seq op jot t ft last) (Log op a b) n =
  Gen (Seq op jot t ft false) a n ++ Gen (Seq op jot t ft last) b (n + nl a).
Proof. destruct op; reflexivity. Qed.
Lemma gen_more kl op e rest n : GenC kl (CMore op e rest) n =
  [PUSH_PRI] ++ [Emit [33]] ++ inner (Some op) false kl (konst e) (Gen Value e n) ++
  [Emit [132]] ++ [Emit [81]] ++ [POP_ALT] ++ GenC (konst e) rest (n + nl e).
Proof. reflexivity. Qed.

(* ---- The theorem ---- *)
Theorem gen_correct :
  (forall e, accepted e -> forall md n, does_mode md (Gen md e n) e (depth e)) /\
  (forall l, accepted_l l -> forall n, locates (GenL l n) l (ldepth l)) /\
  (forall c, accepted_c c -> forall kl n, links (GenC kl c n) kl c (cdepth c)).
Proof.
  assert (MODES : forall e, accepted e ->
    (konst e = None -> forall n, evaluates (value_of e n) e (depth e)) ->
    (forall md n jot t, eff md = Some (jot, t) -> same_seq md e = false ->
       (forall n, evaluates (value_of e n) e (depth e)) -> does_mode md (test_of jot t e n) e (depth e)) ->
    (forall md n, same_seq md e = true -> does_mode md (Gen md e n) e (depth e)) ->
    forall md n, does_mode md (Gen md e n) e (depth e)).
  { intros e A V T S md n.
    assert (V' : forall n, evaluates (value_of e n) e (depth e)).
    { intros n'. destruct (konst e) as [v|] eqn:K; [|now apply V]. rewrite <- gen_value. now apply (konst_evaluates e n' v). }
    destruct (same_seq md e) eqn:Sq; [now apply S|].
    destruct (eff md) as [[jot t]|] eqn:Ef.
    - rewrite (gen_test md e n jot t Ef Sq). now apply T.
    - assert (md = Value) as ->.
      { destruct md as [|j t'|op j t' ft last]; cbn [eff] in Ef; [reflexivity|discriminate|]. destruct last; [discriminate|]. destruct op; discriminate. }
      rewrite gen_value. now apply value_mode. }
  assert (NS : forall md e, match e with Log _ _ _ => False | _ => True end -> same_seq md e = false).
  { intros md e X. destruct md, e; try reflexivity; contradiction X. }
  apply elc_ind.
  - intros v A. apply MODES; [exact A|discriminate| |].
    + intros md n jot t Ef _ V. now apply t_default.
    + intros md n S. now rewrite NS in S.
  - intros l IH A. apply MODES; [exact A| | |].
    + intros K n. unfold value_of. rewrite K. apply v_rv. now apply IH.
    + intros md n jot t Ef _ V. now apply t_default.
    + intros md n S. now rewrite NS in S.
  - intros op e IH A. apply MODES; [exact A| | |].
    + intros K n. unfold value_of. rewrite K. apply v_un. apply value_mode. now apply IH.
    + intros md n jot t Ef _ V. destruct op; [now apply t_default| |now apply t_default].
      cbn [test_of depth]. apply (t_not md jot t); [exact Ef|]. now apply IH.
    + intros md n S. now rewrite NS in S.
  - intros op a IHa b IHb A. destruct A as (Aa & Ab & Ak). apply MODES; [exact (conj Aa (conj Ab Ak))| | |].
    + intros K n. unfold value_of. rewrite K. apply v_bin; auto; apply value_mode; auto.
    + intros md n jot t Ef _ V. cbn [test_of]. destruct (is_compare op) eqn:Co; [|now apply t_default].
      apply t_compare; auto; apply value_mode; auto.
    + intros md n S. now rewrite NS in S.
  - intros op a IHa b IHb A. destruct A as (Aa & Ab). apply MODES; [exact (conj Aa Ab)| | |].
    + intros K n. unfold value_of. rewrite K. apply v_log; auto.
    + intros md n jot t Ef _ V. cbn [test_of]. apply (t_log md op jot t); auto.
    + intros md n S. destruct md as [|j t|op' j t ft last]; try discriminate S.
      assert (op' = op) as -> by (destruct op', op; try discriminate S; reflexivity).
      rewrite gen_seq. apply t_seq; auto.
  - intros a IHa op b IHb rest IHc A. destruct A as (Or & Aa & Ab & Ac). apply MODES; [exact (conj Or (conj Aa (conj Ab Ac)))| | |].
    + intros K n. unfold value_of. rewrite K. apply v_chain; auto; apply value_mode; auto.
    + intros md n jot t Ef _ V. now apply t_default.
    + intros md n S. now rewrite NS in S.
  - intros c IHc a IHa b IHb A. destruct A as (Ac & Aa & Ab). apply MODES; [exact (conj Ac (conj Aa Ab))| | |].
    + intros K n. unfold value_of. rewrite K. apply v_tern; auto; apply value_mode; auto.
    + intros md n jot t Ef _ V. now apply t_default.
    + intros md n S. now rewrite NS in S.
  - intros a IHa b IHb A. destruct A as (Aa & Ab). apply MODES; [exact (conj Aa Ab)| | |].
    + intros K n. unfold value_of. rewrite K. apply v_comma; auto; apply value_mode; auto.
    + intros md n jot t Ef _ V. cbn [test_of]. apply (t_comma md jot t); auto. apply value_mode; auto.
    + intros md n S. now rewrite NS in S.
  - intros l IHl a IHa A. destruct A as (Al & Aa). apply MODES; [exact (conj Al Aa)| | |].
    + intros K n. unfold value_of. rewrite K. apply v_asg; auto. apply value_mode; auto.
    + intros md n jot t Ef _ V. now apply t_default.
    + intros md n S. now rewrite NS in S.
  - intros l IHl op a IHa A. destruct A as (Co & Al & Aa). apply MODES; [exact (conj Co (conj Al Aa))| | |].
    + intros K n. unfold value_of. rewrite K. apply v_asgop; auto. apply value_mode; auto.
    + intros md n jot t Ef _ V. now apply t_default.
    + intros md n S. now rewrite NS in S.
  - intros l IHl up pre A. apply MODES; [exact A| | |].
    + intros K n. unfold value_of. rewrite K. apply v_inc; auto.
    + intros md n jot t Ef _ V. now apply t_default.
    + intros md n S. now rewrite NS in S.
  - intros y _ n. apply locates_var.
  - intros r sz i IH A n. apply locates_cell; [exact A|]. apply value_mode. apply IH. apply A.
  - intros _ kl n. apply c_end.
  - intros op e IHe rest IHc (Or & Ae & Ac) kl n. rewrite gen_more. apply c_more; auto. apply value_mode. auto.
Qed.
End Machine.
