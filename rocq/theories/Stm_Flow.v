(* How statements can end, as the compiler's flow types predict. *)
From Verif Require Import Base Base_Proofs Rt_Model Interp_Model Fold_Model Gen_Model Gen_Spec Gen_Proofs Stm_Model Stm_Spec.
From Coq Require Import ZifyBool Lia.

Scheme stmt_mind := Induction for stmt Sort Prop
with stmts_mind := Induction for stmts Sort Prop
with cases_mind := Induction for cases Sort Prop.
Combined Scheme ssc_ind from stmt_mind, stmts_mind, cases_mind.

Lemma flow_eqb_eq a b : flow_eqb a b = true -> a = b. Proof. destruct a, b; reflexivity || discriminate. Qed.
Lemma flow_acc cs : forall g f, flow_c cs (Some g) = Some f -> f <> FNone -> g = f.
Proof.
  induction cs as [|s|vs s r IH]; intros g f; cbn [flow_c].
  - intros [= <-] N. destruct (flow_eqb g FNone); [reflexivity|contradiction].
  - intros [= <-] N. destruct (flow_eqb g (flow_of s)); [reflexivity|contradiction].
  - intros E N. apply IH in E; [|exact N]. destruct (flow_eqb g (flow_of s)); [exact E|]. subst. contradiction.
Qed.

Lemma is_none_eq f : is_none f = true -> f = FNone. Proof. apply flow_eqb_eq. Qed.
Lemma is_none_neq f : is_none f = false -> f <> FNone. Proof. destruct f; discriminate. Qed.
Lemma terminal_neq f : terminal f = true -> f <> FNone. Proof. destruct f; discriminate. Qed.

Section Flow.
Variable sc : scope.
Lemma rounds_out n test adv body : forall st o st', rounds n test adv body st = Fin o st' -> o = Normal \/ exists v, o = Ret v.
Proof.
  induction n as [|n IH]; intros st o st'; cbn [rounds]; [discriminate|].
  destruct (test st) as [v st1|?|]; cbn [seval]; try discriminate. destruct (v =? 0); [intros [= <- _]; auto|].
  destruct (body st1) as [o2 st2|?| |]; cbn [sthen]; try discriminate.
  destruct o2; try (intros [= <- _]; eauto); destruct (adv st2) as [w st3|?|]; cbn [seval]; try discriminate; apply IH.
Qed.
Lemma rounds_do_out n test body : forall st o st', rounds_do n test body st = Fin o st' -> o = Normal \/ exists v, o = Ret v.
Proof.
  induction n as [|n IH]; intros st o st'; cbn [rounds_do]; [discriminate|].
  destruct (body st) as [o2 st2|?| |]; cbn [sthen]; try discriminate.
  destruct o2; try (intros [= <- _]; eauto); destruct (test st2) as [w st3|?|]; cbn [seval]; try discriminate;
  (destruct (w =? 0); [intros [= <- _]; auto|apply IH]).
Qed.
(* A loop whose condition never fails and that has no break does not end normally. *)
Lemma rounds_endless n test adv body : (forall st v st', test st = Val v st' -> v <> 0) ->
  (forall st o st', body st = Fin o st' -> o <> Brk) ->
  forall st o st', rounds n test adv body st = Fin o st' -> o <> Normal.
Proof.
  intros T B. induction n as [|n IH]; intros st o st'; cbn [rounds]; [discriminate|].
  destruct (test st) as [v st1|?|] eqn:Et; cbn [seval]; try discriminate. apply T in Et. replace (v =? 0) with false by lia.
  destruct (body st1) as [o2 st2|?| |] eqn:Eb; cbn [sthen]; try discriminate. apply B in Eb.
  destruct o2; try contradiction; try (intros [= <- _]; discriminate); destruct (adv st2) as [w st3|?|]; cbn [seval]; try discriminate; apply IH.
Qed.
Lemma rounds_do_endless n test body : (forall st v st', test st = Val v st' -> v <> 0) ->
  (forall st o st', body st = Fin o st' -> o <> Brk) ->
  forall st o st', rounds_do n test body st = Fin o st' -> o <> Normal.
Proof.
  intros T B. induction n as [|n IH]; intros st o st'; cbn [rounds_do]; [discriminate|].
  destruct (body st) as [o2 st2|?| |] eqn:Eb; cbn [sthen]; try discriminate. apply B in Eb.
  destruct o2; try contradiction; try (intros [= <- _]; discriminate);
  destruct (test st2) as [w st3|?|] eqn:Et; cbn [seval]; try discriminate; apply T in Et; replace (w =? 0) with false by lia; apply IH.
Qed.
Lemma always_true c : accepted_o c -> always_taken c = true -> forall st v st', evalo sc c 1 st = Val v st' -> v <> 0 /\ st' = st.
Proof.
  destruct c as [c|]; cbn [accepted_o always_taken evalo].
  - intros A. destruct (konst c) as [v|] eqn:K; [|discriminate]. intros V st w st'. destruct (konst_val sc c v A K) as [_ E]. rewrite E.
    intros [= <- <-]. split; [lia|reflexivity].
  - intros _ _ st v st' [= <- <-]. split; [lia|reflexivity].
Qed.
Lemma always_val c : accepted_o c -> always_taken c = true -> forall st, exists v, evalo sc c 1 st = Val v st /\ (v =? 0) = false.
Proof.
  destruct c as [c|]; cbn [accepted_o always_taken evalo].
  - intros A. destruct (konst c) as [v|] eqn:K; [|discriminate]. intros V st. destruct (konst_val sc c v A K) as [_ E]. exists v. rewrite E. split; [reflexivity|lia].
  - intros _ _ st. now exists 1.
Qed.
Lemma never_val c : accepted_o c -> never_taken c = true -> forall st, evalo sc c 1 st = Val 0 st.
Proof.
  destruct c as [c|]; cbn [accepted_o never_taken evalo]; [|discriminate].
  intros A. destruct (konst c) as [v|] eqn:K; [|discriminate]. intros V st. destruct (konst_val sc c v A K) as [_ E]. rewrite E. f_equal. lia.
Qed.

Variable f : nat.
Notation Ex := (execs sc f).
Notation ExL := (execs_l sc f).
Notation ExC := (execs_c sc f).
Lemma simple_out b : simple_l b -> forall st o st', ExL b st = Fin o st' -> o = Normal.
Proof.
  induction b as [|s r IH]; cbn [simple_l execs_l]; intros S st o st'.
  - now intros [= <- _].
  - destruct S as [S R]. destruct s; try contradiction S; cbn [execs].
    + destruct (eval sc e st); cbn [seval sthen]; try discriminate. now apply IH.
    + destruct (vloc sc (VLocal slot)); [|discriminate]. destruct (evalo sc init 0 st); cbn [seval sthen]; try discriminate. now apply IH.
Qed.

Definition ends_as (r : sres) (fl : flow) (br co : bool) : Prop :=
  forall o st', r = Fin o st' -> (fl <> FNone -> o <> Normal) /\ (br = false -> o <> Brk) /\ (co = false -> o <> Cont).
Lemma ends_loop r fl : (forall o st', r = Fin o st' -> o = Normal \/ exists v, o = Ret v) -> (fl <> FNone -> forall o st', r = Fin o st' -> o <> Normal) ->
  ends_as r fl false false.
Proof.
  intros H K o st' E. split; [intros N; exact (K N o st' E)|]. destruct (H o st' E) as [-> | [v ->]]; split; discriminate.
Qed.
Lemma flows :
  (forall s l, accepted_s l s -> forall st, ends_as (Ex s st) (flow_of s) (has_break s) (continues s)) /\
  (forall b l, accepted_sl l b -> forall st, ends_as (ExL b st) (flow_l b) (has_break_l b) (continues_l b)) /\
  (forall cs l, accepted_sc l cs -> forall v st acc,
     ends_as (ExC v cs st) (match flow_c cs acc with Some g => g | None => FNone end) (has_break_c cs) (continues_c cs)).
Proof.
  apply ssc_ind; cbn [execs execs_l execs_c flow_of flow_l flow_c has_break has_break_l has_break_c continues continues_l continues_c accepted_s accepted_sl accepted_sc].
  - intros e l A st o st'. destruct (eval sc e st); cbn [seval]; try discriminate. intros [= <- _]. split; [contradiction|split; discriminate].
  - intros slot i l A st o st'. destruct (vloc sc (VLocal slot)); [|discriminate]. destruct (evalo sc i 0 st); cbn [seval]; try discriminate.
    intros [= <- _]. split; [contradiction|split; discriminate].
  - intros b IH l A st. exact (IH l A st).
  - intros c a IH l (A & B) st o st'. destruct (eval sc c st) as [v st1|?|]; cbn [seval]; try discriminate. destruct (v =? 0).
    + intros [= <- _]. split; [contradiction|split; discriminate].
    + intros E. destruct (IH l B st1 o st' E) as (_ & X & Y). split; [contradiction|auto].
  - intros c a IHa b IHb l (A & B & C) st o st'. destruct (eval sc c st) as [v st1|?|]; cbn [seval]; try discriminate.
    destruct (flow_eqb (flow_of a) (flow_of b)) eqn:Fe.
    + apply flow_eqb_eq in Fe. destruct (v =? 0); intros E; [destruct (IHb l C st1 o st' E) as (U & X & Y)|destruct (IHa l B st1 o st' E) as (U & X & Y)].
      * rewrite <- Fe in U. rewrite !orb_false_iff. repeat split; intros; tauto.
      * rewrite !orb_false_iff. repeat split; intros; tauto.
    + destruct (v =? 0); intros E; [destruct (IHb l C st1 o st' E) as (U & X & Y)|destruct (IHa l B st1 o st' E) as (U & X & Y)];
      rewrite !orb_false_iff; repeat split; intros; tauto.
  - intros c b IH l (A & B) st. apply ends_loop; [apply rounds_out|]. intros N. destruct (always_taken (Some c)) eqn:Al; [|contradiction].
    destruct (has_break b) eqn:Hb; [contradiction|]. intros o st' E.
    revert E. apply rounds_endless.
    + intros st1 v st2 E. exact (proj1 (always_true (Some c) A Al st1 v st2 E)).
    + intros st1 o1 st2 E. destruct (IH true B st1 o1 st2 E) as (_ & X & _). exact (X eq_refl).
  - intros b IH c l (A & B) st. apply ends_loop; [apply rounds_do_out|]. intros N. destruct (always_taken (Some c)) eqn:Al; [|contradiction].
    destruct (has_break b) eqn:Hb; [contradiction|]. intros o st' E.
    revert E. apply rounds_do_endless.
    + intros st1 v st2 E. exact (proj1 (always_true (Some c) A Al st1 v st2 E)).
    + intros st1 o1 st2 E. destruct (IH true B st1 o1 st2 E) as (_ & X & _). exact (X eq_refl).
  - intros i IHi c a b IH l (A & S & C & D & B) st.
    match goal with |- ends_as _ ?fl _ _ => change (ends_as (sthen (ExL i st) (fun o st =>
      match o with Normal => rounds f (evalo sc c 1) (evalo sc a 0) (fun st => Ex b st) st | _ => Fin o st end)) fl false false) end.
    destruct (ExL i st) as [o1 st1|?| |] eqn:Ei; cbn [sthen]; try (intros o st'; discriminate). assert (o1 = Normal) as -> by exact (simple_out i S _ _ _ Ei).
    apply ends_loop; [apply rounds_out|]. intros N. destruct (always_taken c) eqn:Al; [|contradiction].
    destruct (has_break b) eqn:Hb; [contradiction|]. intros o st' E.
    revert E. apply rounds_endless.
    + intros st2 v st3 E. exact (proj1 (always_true c C Al st2 v st3 E)).
    + intros st2 o2 st3 E. destruct (IH true B st2 o2 st3 E) as (_ & X & _). exact (X eq_refl).
  - intros e cs IH l (A & B & _) st o st'. destruct (eval sc e st) as [v st1|?|]; cbn [seval]; try discriminate. apply (IH l B v st1 None).
  - intros l A st o st' [= <- _]. split; [|split]; discriminate.
  - intros l A st o st' [= <- _]. split; [|split]; discriminate.
  - intros e l A st o st'. destruct (evalo sc e 0 st); cbn [seval]; try discriminate. intros [= <- _]. split; [|split]; discriminate.
  - intros l _ st o st' [= <- _]. split; [contradiction|split; discriminate].
  - intros s IHs r IHr l (A & B) st.
    change (ends_as (sthen (Ex s st) (fun o st => match o with Normal => ExL r st | _ => Fin o st end))
      (match flow_of s with FNone => flow_l r | g => g end) (has_break s || has_break_l r) (continues s || continues_l r)).
    intros o st'. destruct (Ex s st) as [o1 st1|?| |] eqn:E; cbn [sthen]; try discriminate.
    destruct (IHs l A st o1 st1 E) as (U & X & Y). rewrite !orb_false_iff. destruct o1.
    + intros E2. destruct (IHr l B st1 o st' E2) as (U2 & X2 & Y2). repeat split; intros; try tauto. apply U2.
      destruct (flow_of s) eqn:Fs; auto; exfalso; apply U; (discriminate || reflexivity).
    + intros [= <- _]. repeat split; intros; try tauto; discriminate.
    + intros [= <- _]. repeat split; intros; try tauto; discriminate.
    + intros [= <- _]. repeat split; intros; try tauto; discriminate.
  - intros l _ v st acc o st' [= <- _]. repeat split; try discriminate. destruct acc as [g|]; cbn; [|contradiction].
    destruct (flow_eqb g FNone) eqn:E; [apply flow_eqb_eq in E; contradiction|contradiction].
  - intros s IH l A v st acc o st' E. destruct (IH l A st o st' E) as (U & X & Y). repeat split; auto.
    destruct acc as [g|]; [|exact U]. destruct (flow_eqb g (flow_of s)) eqn:Fe; [apply flow_eqb_eq in Fe; subst; exact U|contradiction].
  - intros vs s IHs r IHr l (A & B) v st acc o st'. destruct (existsb (Z.eqb v) vs); intros E.
    + destruct (IHs l A st o st' E) as (U & X & Y). rewrite !orb_false_iff. repeat split; intros; try tauto.
      apply U. intros Fn. rewrite Fn in H.
      destruct acc as [g|].
      * destruct (flow_c r (Some (if flow_eqb g FNone then g else FNone))) as [h|] eqn:Eh; [|contradiction].
        pose proof (flow_acc r _ h Eh H) as K. destruct (flow_eqb g FNone) eqn:Eg; [apply flow_eqb_eq in Eg; congruence|congruence].
      * destruct (flow_c r (Some FNone)) as [h|] eqn:Eh; [|contradiction]. pose proof (flow_acc r _ h Eh H). congruence.
    + destruct (IHr l B v st (match acc with Some g => Some (if flow_eqb g (flow_of s) then g else FNone) | None => Some (flow_of s) end) o st' E) as (U & X & Y).
      rewrite !orb_false_iff. repeat split; intros; tauto.
Qed.
Lemma flows_s s l st o st' : accepted_s l s -> Ex s st = Fin o st' ->
  (flow_of s <> FNone -> o <> Normal) /\ (has_break s = false -> o <> Brk) /\ (continues s = false -> o <> Cont).
Proof. intros A. exact (proj1 flows s l A st o st'). Qed.
End Flow.

Lemma continues_has :
  (forall s, continues s = true -> has_continue s = true) /\
  (forall b, continues_l b = true -> has_continue_l b = true) /\
  (forall cs, continues_c cs = true -> has_continue_c cs = true).
Proof.
  apply ssc_ind; cbn [continues continues_l continues_c has_continue has_continue_l has_continue_c]; intros; try discriminate; auto;
  rewrite orb_true_iff in *; tauto.
Qed.
(* Outside loops there is neither break nor continue. *)
Lemma no_loop :
  (forall s, accepted_s false s -> has_break s = false /\ continues s = false) /\
  (forall b, accepted_sl false b -> has_break_l b = false /\ continues_l b = false) /\
  (forall cs, accepted_sc false cs -> has_break_c cs = false /\ continues_c cs = false).
Proof.
  apply ssc_ind; cbn [continues continues_l continues_c has_break has_break_l has_break_c accepted_s accepted_sl accepted_sc]; intros; auto;
  try discriminate; rewrite ?orb_false_iff; tauto.
Qed.
