(* The items of files and the whole program. *)

From Coq Require Import ZArith List Bool Arith Lia.
From Verif Require Import Names_Model Names_Spec Names_Rep Names_Steps Names_Walk Names_Top.
Import ListNotations.
Local Open Scope Z_scope.

Section Whole.
Variable B : nat.

Definition resT (st st' : state) (D : table) (L : list (Z * Z)) (O : list occ) : Prop :=
  if has_err (evs D L O)
  then exists new, st_out st' = st_out st ++ new /\ has_err new = true
  else st_out st' = st_out st ++ evs D L O /\ st_link st' = dL D L O /\ top B st' (dD D O).

Lemma resT_seq : forall st st1 st2 D L O1 O2,
  resT st st1 D L O1 -> ext st1 st2 ->
  (st_link st1 = dL D L O1 -> top B st1 (dD D O1) ->
   resT st1 st2 (dD D O1) (dL D L O1) O2) ->
  resT st st2 D L (O1 ++ O2).
Proof.
  intros st st1 st2 D L O1 O2 R1 [x X] R2. unfold resT in *. rewrite evs_app, has_err_app.
  destruct (has_err (evs D L O1)) eqn:E1; cbn [orb].
  - destruct R1 as [n1 [N1 N2]]. exists (n1 ++ x). rewrite X, N1, app_assoc. split; [reflexivity|].
    rewrite has_err_app, N2. reflexivity.
  - destruct R1 as [O1E [LE RE]]. specialize (R2 LE RE).
    destruct (has_err (evs (dD D O1) (dL D L O1) O2)) eqn:E2.
    + destruct R2 as [n2 [N1 N2]]. exists (evs D L O1 ++ n2).
      rewrite N1, O1E, app_assoc. split; [reflexivity|]. rewrite has_err_app, N2, orb_true_r.
      reflexivity.
    + destruct R2 as [A1 [A2 A3]]. rewrite dD_app, dL_app.
      split; [rewrite A1, O1E, app_assoc; reflexivity|]. split; [exact A2|exact A3].
Qed.

Lemma resT_nil : forall st D L, st_link st = L -> top B st D -> resT st st D L [].
Proof. intros. unfold resT. cbn [evs has_err existsb dL dD]. rewrite app_nil_r. auto. Qed.

Lemma top_in : forall st D f, top B st D -> top B (in_file st f) D.
Proof. intros st D f T. exact T. Qed.

(* A state at the top of file f. *)
Definition at_file (st : state) (f : nat) : Prop := st_cur st = S f.

Lemma at_srep : forall st D f, top B st D -> (f < B)%nat -> at_file st f -> srep B st D [InFile f].
Proof.
  intros st D f T F C. unfold srep. rewrite C, (proj1 T). exact (top_rep B _ _ _ T F).
Qed.

Lemma expr_top : forall e st D L f, st_link st = L -> top B st D -> (f < B)%nat -> at_file st f ->
  resT st (fst (bind_e st e)) D L (occ_e [InFile f] e) /\ at_file (fst (bind_e st e)) f.
Proof.
  intros e st D L f HL T F C.
  pose proof (proj1 (bind_e_res B e st D L [InFile f] HL (at_srep _ _ _ T F C))) as R.
  pose proof (bind_e_same e st) as [E1 [E2 [E3 _]]].
  split; [|unfold at_file; congruence].
  unfold res, resP, resT in *. destruct (has_err (evs D L (occ_e [InFile f] e))); [exact R|].
  destruct R as [A1 [A2 _]]. split; [exact A1|]. split; [exact A2|]. rewrite occ_e_D.
  unfold top. rewrite E1, E3. exact T.
Qed.

Lemma top_put : forall (st : state) (D : table) (f : nat) (static : bool) (d : decl), top B st D -> (f < B)%nat -> forall st',
  st_cs st' = [] ->
  st_heap st' = upd (st_heap st) (if static then S f else 0%nat) (add_tab d) ->
  top B st' ((top_place f static, d) :: D).
Proof.
  intros st D f static d (CS & BL & N0 & NF) F st' C E.
  split; [exact C|]. rewrite E. split; [rewrite upd_length; exact BL|]. destruct static.
  - split.
    + rewrite nth_upd_other by lia. rewrite at_cons. cbn [top_place].
      destruct (place_dec [InFile f] []) as [X|]; [discriminate X|exact N0].
    + intros g G. rewrite at_cons. cbn [top_place].
      destruct (Nat.eq_dec f g) as [<-|NE].
      * rewrite nth_upd_same, (NF f F). cbn [option_map]. unfold add_tab.
        cbn [s_parent s_kind s_tab].
        destruct (place_dec [InFile f] [InFile f]); [reflexivity|congruence].
      * rewrite nth_upd_other by lia.
        destruct (place_dec [InFile f] [InFile g]) as [X|]; [congruence|exact (NF g G)].
  - split.
    + rewrite nth_upd_same, N0. cbn [option_map]. unfold add_tab. cbn [s_parent s_kind s_tab].
      rewrite at_cons. cbn [top_place]. destruct (place_dec [] []); [reflexivity|congruence].
    + intros g G. rewrite nth_upd_other by lia. rewrite at_cons. cbn [top_place].
      destruct (place_dec [] [InFile g]) as [X|]; [discriminate X|exact (NF g G)].
Qed.

Definition vc (static : bool) : vclass := if static then VStatic else VGlobal.

Lemma define_top : forall (st : state) (D : table) (f : nat) (static : bool) (d : decl), top B st D -> (f < B)%nat -> at_file st f ->
  st_out (define st (vc static) d) = st_out st /\ st_link (define st (vc static) d) = st_link st /\
  st_cur (define st (vc static) d) = st_cur st /\
  top B (define st (vc static) d) ((top_place f static, d) :: D).
Proof.
  intros st D f static d T F C. destruct T as (CS & BL & N0 & NF).
  assert (T : top B st D) by (repeat split; assumption).
  assert (SF : scope_for_add st = (st, S f)) by (unfold scope_for_add; rewrite CS, C; reflexivity).
  unfold define. rewrite SF, (NF f F). cbn [s_kind kind_eqb s_parent].
  destruct static; cbn [vc andb].
  - unfold kind_of. rewrite (NF f F). cbn [s_kind global_or_file st_out st_link].
    split; [reflexivity|]. split; [reflexivity|]. split; [reflexivity|].
    apply (top_put st D f true d T F); [exact CS|reflexivity].
  - unfold kind_of. rewrite N0. cbn [s_kind kind_eqb]. unfold kind_of. rewrite N0.
    cbn [s_kind global_or_file st_out st_link].
    split; [reflexivity|]. split; [reflexivity|]. split; [reflexivity|].
    apply (top_put st D f false d T F); [exact CS|reflexivity].
Qed.

Lemma look_top : forall st D f n, top B st D -> (f < B)%nat -> at_file st f ->
  look st n = match tab_find n (at_ D [InFile f]) with
              | Some d => LFound d (S f)
              | None => match tab_find n (at_ D []) with
                        | Some d => LFound d 0
                        | None => LNone
                        end
              end.
Proof.
  intros st D f n (CS & BL & N0 & NF) F C. unfold look. rewrite C.
  destruct (length (st_heap st)) as [|[|fu]] eqn:LL; [lia|lia|].
  cbn [find_sym]. rewrite (NF f F). cbn [s_tab s_parent].
  destruct (tab_find n (at_ D [InFile f])); [reflexivity|]. rewrite N0.
  cbn [s_tab s_parent]. destruct (tab_find n (at_ D [])); reflexivity.
Qed.

Lemma var_top : forall st D L f static d, st_link st = L -> top B st D -> (f < B)%nat ->
  at_file st f ->
  let r := check_redef false st (vc static) d in
  resT st (if snd r then define (fst r) (vc static) d else fst r) D L [OVar f static d] /\
  at_file (if snd r then define (fst r) (vc static) d else fst r) f /\
  snd r = negb (has_err (ev1 D L (OVar f static d))).
Proof.
  intros st D L f static d HL T F C r. subst r.
  pose proof T as (CS & BL & N0 & NF).
  unfold check_redef, new_status. rewrite (look_top st D f (d_name d) T F C).
  assert (SF : scope_for_add st = (st, S f)) by (unfold scope_for_add; rewrite CS, C; reflexivity).
  assert (KF : kind_of (st_heap st) (S f) = KFile) by (unfold kind_of; rewrite (NF f F); reflexivity).
  assert (K0 : kind_of (st_heap st) 0 = KGlobal) by (unfold kind_of; rewrite N0; reflexivity).
  unfold resT. cbn [evs ev1 dL dL1 dD dD1].
  destruct (tab_find (d_name d) (at_ D [InFile f])) as [x|].
  - rewrite SF, KF. cbn [kind_eqb global_or_file andb]. rewrite Nat.eqb_refl.
    cbn [fst snd app has_err existsb is_error orb negb].
    split; [exists [Redef (d_pos d)]; split; reflexivity|]. split; [exact C|reflexivity].
  - destruct (tab_find (d_name d) (at_ D [])) as [x|].
    + rewrite SF, KF, K0. cbn [kind_eqb global_or_file andb].
      destruct static; cbn [vc fst snd app has_err existsb is_error orb negb].
      * destruct (define_top (say (Shadow (d_pos d)) st) D f true d T F C) as [A1 [A2 [A3 A4]]].
        cbn [vc] in *. split; [|split; [unfold at_file; rewrite A3; exact C|reflexivity]].
        split; [rewrite A1; reflexivity|]. split; [rewrite A2; exact HL|exact A4].
      * split; [exists [Redef (d_pos d)]; split; reflexivity|]. split; [exact C|reflexivity].
    + destruct (define_top st D f static d T F C) as [A1 [A2 [A3 A4]]].
      cbn [fst snd app has_err existsb is_error orb negb].
      split; [|split; [unfold at_file; rewrite A3; exact C|reflexivity]].
      split; [rewrite A1, app_nil_r; reflexivity|]. split; [rewrite A2; exact HL|exact A4].
Qed.

Lemma vis_file : forall D f n, vis D [InFile f] n =
  match tab_find n (at_ D [InFile f]) with
  | Some d => Some ([InFile f], d)
  | None => match tab_find n (at_ D []) with Some d => Some ([], d) | None => None end
  end.
Proof. reflexivity. Qed.

Lemma fun_top : forall st D L f a d, st_link st = L -> top B st D -> (f < B)%nat ->
  at_file st f -> pf1 D L (OFun f a d) ->
  resT st (enter_fun st d a) D L [OFun f a d].
Proof.
  intros st D L f a d HL T F C P. unfold enter_fun, resT. cbn [evs ev1 app has_err existsb].
  rewrite (look_top st D f (d_name d) T F C). cbn [dL dD dL1 dD1 pf1] in *.
  rewrite vis_file in *.
  assert (PAIR : forall d', okpair L d' a ->
    let '(st1, ok) := can_redefine st d' d a in
    st1 = st /\ ok = true /\ assoc (d_pos d') (st_link st) = None).
  { intros d' (a' & FN & TH & AS). unfold can_redefine. rewrite FN, HL, AS.
    destruct TH as [[[P1 P2] (Q1 & Q2 & Q3 & Q4 & Q5 & Q6)]|[(Q1 & Q2 & Q3 & Q4 & Q5 & Q6) [P1 P2]]].
    - rewrite P1, P2, Q1, Q3, Q4, Q5, Q6. cbn. auto.
    - rewrite P1, P2, Q1, Q2, Q3. cbn. auto. }
  destruct (tab_find (d_name d) (at_ D [InFile f])) as [x|].
  - specialize (PAIR x P). destruct (can_redefine st x d a) as [st1 ok].
    destruct PAIR as [-> [-> AS]]. rewrite AS. cbn [st_out st_link st_heap].
    split; [now rewrite app_nil_r|]. split; [unfold links_of; rewrite HL; reflexivity|]. exact T.
  - destruct (tab_find (d_name d) (at_ D [])) as [x|].
    + specialize (PAIR x P). destruct (can_redefine st x d a) as [st1 ok].
      destruct PAIR as [-> [-> AS]]. rewrite AS. cbn [st_out st_link st_heap].
      split; [now rewrite app_nil_r|]. split; [unfold links_of; rewrite HL; reflexivity|]. exact T.
    + destruct (define_top st D f (f_static a) d T F C) as [A1 [A2 [A3 A4]]].
      change (if f_static a then VStatic else VGlobal) with (vc (f_static a)).
      split; [rewrite A1, app_nil_r; reflexivity|]. split; [congruence|exact A4].
Qed.

Lemma ext_redefine : forall st o d a, ext st (fst (can_redefine st o d a)).
Proof.
  intros. unfold can_redefine. destruct (d_fn o); [|apply ext_say].
  repeat match goal with |- context [if ?b then _ else _] => destruct b end;
    cbn [fst]; (apply ext_say || apply ext_refl).
Qed.

Lemma ext_enter : forall st x, ext st (enter_item st x).
Proof.
  intros st [f it]. unfold enter_item. cbn [fst snd].
  assert (E0 : ext st (in_file st f)) by (apply ext_out; reflexivity).
  destruct it; try exact E0; (eapply ext_trans; [exact E0|]).
  - apply ext_var.
  - apply ext_const.
  - unfold enter_fun. destruct (look _ _); [| apply ext_define|apply ext_say].
    match goal with |- context [can_redefine ?s ?o ?d ?a] =>
      pose proof (ext_redefine s o d a) as X; destruct (can_redefine s o d a) as [st1 ok] end.
    cbn [fst] in X. destruct ok; [|exact X]. destruct (assoc _ _).
    + eapply ext_trans; [exact X|apply ext_say].
    + eapply ext_trans; [exact X|apply ext_out; reflexivity].
Qed.

Lemma enter_item_res : forall st D L x, st_link st = L -> top B st D -> (fst x < B)%nat ->
  pf D L (occ_names x) -> resT st (enter_item st x) D L (occ_names x).
Proof.
  intros st D L [f it] HL T F P. unfold enter_item, occ_names in *. cbn [fst snd] in *.
  pose proof (top_in st D f T) as T0. set (st0 := in_file st f) in *.
  assert (L0 : st_link st0 = L) by exact HL.
  assert (C0 : at_file st0 f) by reflexivity.
  assert (OUT : st_out st0 = st_out st) by reflexivity.
  enough (G : resT st0 (match it with
    | TVar static p n e => bind_var false st0 (if static then VStatic else VGlobal) (mkD n p None) e
    | TConst p n e => bind_const false st0 VGlobal (mkD n p None) e
    | TFun a p n _ _ => enter_fun st0 (mkD n p (Some a)) a
    | TMethod _ _ _ => st0 | TExpr _ => st0 end) D L (occ_names (f, it)))
    by exact G.
  unfold occ_names. cbn [fst snd]. clearbody st0.
  destruct it.
  - destruct (expr_top e st0 D L f L0 T0 F C0) as [R1 C1].
    unfold bind_var. destruct (bind_e st0 e) as [st1 o]. cbn [fst] in *.
    eapply resT_seq; [exact R1| |].
    + match goal with |- context [check_redef ?n ?s ?v ?d] =>
        pose proof (ext_check n s v d) as X; destruct (check_redef n s v d) as [st2 ok] end.
      cbn [fst] in X. destruct ok; [eapply ext_trans; [exact X|apply ext_define]|exact X].
    + intros LL TT. pose proof (var_top st1 _ _ f static (mkD n p None) LL TT F C1) as [R2 _].
      unfold vc in R2. destruct (check_redef false st1 _ _) as [st2 ok]. exact R2.
  - pose proof (var_top st0 D L f false (mkD n p None) L0 T0 F C0) as [R2 [C2 OK]].
    unfold bind_const. cbn [vc] in *.
    destruct (check_redef false st0 VGlobal (mkD n p None)) as [st2 ok]. cbn [fst snd] in *.
    change (OVar f false (mkD n p None) :: occ_e [InFile f] e) with
      ([OVar f false (mkD n p None)] ++ occ_e [InFile f] e).
    destruct ok.
    + eapply resT_seq; [exact R2|apply ext_bind_e|]. intros LL TT.
      exact (proj1 (expr_top e _ _ _ f LL TT F C2)).
    + unfold resT in *. rewrite evs_app, has_err_app. cbn [evs] in *. rewrite app_nil_r in *.
      destruct (has_err (ev1 D L (OVar f false (mkD n p None)))); [exact R2|discriminate OK].
  - cbn [pf] in P. apply fun_top; try assumption. exact (proj1 P).
  - apply resT_nil; assumption.
  - apply resT_nil; assumption.
Qed.

Lemma enter_all : forall p st D L, st_link st = L -> top B st D ->
  (forall x, In x p -> (fst x < B)%nat) -> pf D L (flat_map occ_names p) ->
  resT st (fold_left enter_item p st) D L (flat_map occ_names p) .
Proof.
  induction p as [|x p IH]; intros st D L HL T F P; cbn [fold_left flat_map].
  - apply resT_nil; assumption.
  - cbn [flat_map] in P. apply pf_app in P. destruct P as [P1 P2].
    eapply resT_seq.
    + apply enter_item_res; [exact HL|exact T|apply F; left; reflexivity|exact P1].
    + clear. generalize (enter_item st x). induction p as [|y p IH]; intros s; cbn [fold_left].
      * apply ext_refl.
      * eapply ext_trans; [apply ext_enter|apply IH].
    + intros LL TT. apply IH; [exact LL|exact TT| |exact P2]. intros y Y. apply F. right. exact Y.
Qed.

Lemma ext_fun : forall native st args body, ext st (bind_fun native st args body).
Proof.
  intros. unfold bind_fun.
  eapply ext_trans; [|apply ext_out; reflexivity].
  eapply ext_trans; [|apply ext_bind_s].
  destruct args; [apply ext_out; reflexivity|].
  eapply ext_trans; [|apply ext_args]. apply ext_out. reflexivity.
Qed.

Lemma ext_bind_item : forall st x, ext st (bind_item st x).
Proof.
  intros st [f it]. unfold bind_item. cbn [fst snd].
  assert (E0 : ext st (in_file st f)) by (apply ext_out; reflexivity).
  destruct it; try exact E0; (eapply ext_trans; [exact E0|]).
  - apply ext_fun.
  - apply ext_fun.
  - apply ext_bind_e.
Qed.

Lemma bind_item_res : forall st D L k x, st_link st = L -> top B st D -> (fst x < B)%nat ->
  fresh D [k] ->
  match snd x with
  | TFun a _ _ _ body => f_native a = true -> body = SSkip
  | TMethod native _ body => native = true -> body = SSkip
  | _ => True
  end ->
  resT st (bind_item st x) D L (occ_inside k x).
Proof.
  intros st D L k [f it] HL T F FR NB. unfold bind_item, occ_inside in *. cbn [fst snd] in *.
  assert (W : forall st' O, resP B (fun s T0 => top B s T0) (in_file st f) st' D L O ->
                resT st st' D L O).
  { intros st' O R. unfold resP, resT in *. destruct (has_err (evs D L O)); [exact R|].
    destruct R as [A1 [A2 [A3 _]]]. auto. }
  destruct it.
  - apply (resT_nil (in_file st f)); assumption.
  - apply (resT_nil (in_file st f)); assumption.
  - apply W. apply bind_fun_res; try assumption. reflexivity.
  - apply W. apply bind_fun_res; try assumption. reflexivity.
  - exact (proj1 (expr_top e (in_file st f) D L f HL T F eq_refl)).
Qed.

Lemma inside_grown : forall k x D, exists N, dD D (occ_inside k x) = N ++ D /\
  forall q d, In (q, d) N -> forall w, In (At w) q -> extends w [k].
Proof.
  assert (FUN : forall f k native args body D, exists N,
    dD D (occ_fun f k native args body) = N ++ D /\
    forall q d, In (q, d) N -> forall w, In (At w) q -> extends w [k]).
  { intros f k native args body D. unfold occ_fun. rewrite dD_app.
    set (q := [At [k]; InFile f]).
    assert (G : grown D (dD (dD D (occ_args q (if native then NativeArgument else Argument) args))
                  (occ_s q [0; k]%nat (SBlock body))) q [k]).
    { eapply grown_trans; [apply grown_args|]. apply grown_up with (a := 0%nat). apply occ_s_grown. }
    destruct G as [N [E G]]. exists N. split; [exact E|]. intros q' d I w W.
    destruct (G _ _ I) as [_ C]. destruct (C w W) as [[X|[X|[]]]|X].
    - injection X as <-. exists []. reflexivity.
    - discriminate X.
    - exact X. }
  intros k [f it] D. unfold occ_inside. cbn [fst snd]. destruct it.
  - exists []. split; [reflexivity|intros q d []].
  - exists []. split; [reflexivity|intros q d []].
  - apply FUN.
  - apply FUN.
  - exists []. rewrite occ_e_D. split; [reflexivity|intros q d []].
Qed.

Lemma bind_all : forall p k st D L, st_link st = L -> top B st D ->
  (forall x, In x p -> (fst x < B)%nat) ->
  (forall f x, In (f, x) p ->
     match x with
     | TFun a _ _ _ body => f_native a = true -> body = SSkip
     | TMethod native _ body => native = true -> body = SSkip
     | _ => True
     end) ->
  (forall j, (k <= j)%nat -> fresh D [j]) ->
  resT st (fold_left bind_item p st) D L (occ_bodies k p).
Proof.
  induction p as [|x p IH]; intros k st D L HL T F NB FR; cbn [fold_left occ_bodies].
  - apply resT_nil; assumption.
  - eapply resT_seq.
    + apply bind_item_res; [exact HL|exact T|apply F; left; reflexivity|apply FR, le_n|].
      destruct x as [f it]. exact (NB f it (or_introl eq_refl)).
    + clear. generalize (bind_item st x). induction p as [|y p IH]; intros s; cbn [fold_left].
      * apply ext_refl.
      * eapply ext_trans; [apply ext_bind_item|apply IH].
    + intros LL TT. apply IH; [exact LL|exact TT| | |].
      * intros y Y. apply F. right. exact Y.
      * intros f y Y. apply (NB f). right. exact Y.
      * intros j J. destruct (inside_grown k x D) as [N [-> G]]. intros q d w I W K.
        apply in_app_or in I. destruct I as [I|I].
        -- pose proof (extends_two _ _ _ _ (G _ _ I w W) K). lia.
        -- exact (FR j ltac:(lia) q d w I W K).
Qed.

Lemma names_places : forall O D, (forall o, In o O -> exists x, In o (occ_names x)) ->
  (forall q d, In (q, d) D -> forall w, ~ In (At w) q) ->
  forall q d, In (q, d) (dD D O) -> forall w, ~ In (At w) q.
Proof.
  assert (TP : forall f s w, ~ In (At w) (top_place f s)).
  { intros f [] w; cbn [top_place].
    - intros [X|[]]; discriminate X.
    - intros []. }
  assert (OE : forall e q o, In o (occ_e q e) -> exists q' u n, o = OUse q' u n).
  { induction e; intros q o I; cbn [occ_e] in I.
    - destruct I.
    - destruct I as [<-|[]]. eauto.
    - apply in_app_or in I. destruct I as [I|I]; eauto.
    - apply in_app_or in I. destruct I as [I|I]; eauto. }
  induction O as [|o O IH]; intros D HO HD q d I w; cbn [dD] in I; [exact (HD q d I w)|].
  refine (IH (dD1 D o) _ _ q d I w); [intros o' I'; apply HO; right; exact I'|].
  destruct (HO o (or_introl eq_refl)) as [[f it] IN]. unfold occ_names in IN. cbn [fst snd] in IN.
  intros q1 d1 I1 w1.
  assert (C : (exists q' u n, o = OUse q' u n) \/ (exists f s x, o = OVar f s x) \/
              exists f a x, o = OFun f a x).
  { destruct it; try destruct IN.
    - apply in_app_or in IN. destruct IN as [IN|[<-|[]]]; [left; exact (OE _ _ _ IN)|right; left; eauto].
    - subst o. right. left. eauto.
    - left. exact (OE _ _ _ H).
    - subst o. right. right. eauto.
    - destruct H. }
  destruct C as [(q' & u & n & ->)|[(g & s & x & ->)|(g & a & x & ->)]]; cbn [dD1] in I1.
  - exact (HD q1 d1 I1 w1).
  - destruct I1 as [E|I1]; [injection E as <- <-; apply TP|exact (HD q1 d1 I1 w1)].
  - destruct (vis D [InFile g] (d_name x)); [exact (HD q1 d1 I1 w1)|].
    destruct I1 as [E|I1]; [injection E as <- <-; apply TP|exact (HD q1 d1 I1 w1)].
Qed.

End Whole.

Lemma top_start : forall files, top files (start files) [].
Proof.
  intros. split; [reflexivity|]. cbn [start st_heap length]. rewrite repeat_length.
  split; [lia|]. split; [reflexivity|]. intros f F. cbn [nth_error].
  apply nth_error_repeat. exact F.
Qed.

(* The whole program. *)
Lemma resolve_res : forall files p, files_exist files p -> natives_bodiless p ->
  pf [] [] (flat_map occ_names p) ->
  if has_err (evs [] [] (occurrences p))
  then has_err (st_out (resolve_names files p)) = true
  else st_out (resolve_names files p) = evs [] [] (occurrences p).
Proof.
  intros files p FE NB P. unfold resolve_names, occurrences.
  assert (R : resT files (start files)
    (fold_left bind_item p (fold_left enter_item p (start files))) [] []
    (flat_map occ_names p ++ occ_bodies 0 p)).
  { eapply resT_seq.
    - apply enter_all; [reflexivity|apply top_start|exact FE|exact P].
    - clear. generalize (fold_left enter_item p (start files)).
      induction p as [|y p IH]; intros s; cbn [fold_left].
      + apply ext_refl.
      + eapply ext_trans; [apply ext_bind_item|apply IH].
    - intros LL TT. apply bind_all; [exact LL|exact TT|exact FE|exact NB|].
      intros j _ q d w I W K.
      refine (names_places (flat_map occ_names p) [] _ _ q d I w W).
      + intros o O. apply in_flat_map in O. destruct O as [x [_ X]]. exists x. exact X.
      + intros ? ? []. }
  unfold resT in R. destruct (has_err (evs [] [] (flat_map occ_names p ++ occ_bodies 0 p))).
  - destruct R as [new [-> N]]. exact N.
  - destruct R as [-> _]. reflexivity.
Qed.
