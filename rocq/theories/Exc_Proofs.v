From Verif Require Import Base Base_Proofs Exc_Model Exc_Spec.

(* Induction over host code with its nested lists. *)
Section Ind.
Variable P : host -> Prop.
Hypothesis HR : forall c m, P (Report c m).
Hypothesis HS : forall b p, Forall P b -> P (Scope b p).
Hypothesis HE : forall b, Forall P b -> P (Execute b).
Hypothesis HI : forall b, Forall P b -> P (InvokeFn b).
Fixpoint host_all (h : host) : P h :=
  let fix all (l : list host) : Forall P l :=
    match l with [] => Forall_nil P | h :: r => Forall_cons h (host_all h) (all r) end in
  match h with Report c m => HR c m | Scope b p => HS b p (all b) | Execute b => HE b (all b) | InvokeFn b => HI b (all b) end.
End Ind.

Lemma run_scope strict b p e : run1 strict (Scope b p) e =
  match run strict b (EnterScope e) with
  | None => None
  | Some o =>
    match (if p && hasPendingException (o_env o) then Rethrow strict (o_env o) else Some (o_env o)) with
    | None => None
    | Some e' => Some (mkOut (seen o ++ [Seen (o_env o)]) (LeaveScope e') (p && hasPendingException (o_env o)))
    end
  end.
Proof.
  cbn [run1]. match goal with |- match ?f b ?x with _ => _ end = _ => assert (E : forall hs e, f hs e = run strict hs e) end.
  { clear. induction hs as [|h hs IH]; intros e; cbn; [reflexivity|]. destruct (run1 strict h e) as [o|]; [|reflexivity].
    destruct (stopped o); [reflexivity|]. rewrite IH. reflexivity. }
  rewrite E. reflexivity.
Qed.
Lemma run_execute strict b e : run1 strict (Execute b) e =
  match run strict b (clearPendingException (EnterScope (clearPendingException e))) with
  | None => None
  | Some o => Some (mkOut (seen o ++ [Seen (o_env o)]) (LeaveScope (o_env o)) false)
  end.
Proof.
  cbn [run1]. match goal with |- match ?f b ?x with _ => _ end = _ => assert (E : forall hs e, f hs e = run strict hs e) end.
  { clear. induction hs as [|h hs IH]; intros e; cbn; [reflexivity|]. destruct (run1 strict h e) as [o|]; [|reflexivity].
    destruct (stopped o); [reflexivity|]. rewrite IH. reflexivity. }
  rewrite E. reflexivity.
Qed.
Lemma run_invoke strict b e : run1 strict (InvokeFn b) e = run strict b (clearPendingException e).
Proof.
  cbn [run1]. match goal with |- ?f b ?x = _ => assert (E : forall hs e, f hs e = run strict hs e) end.
  { clear. induction hs as [|h hs IH]; intros e; cbn; [reflexivity|]. destruct (run1 strict h e) as [o|]; [|reflexivity].
    destruct (stopped o); [reflexivity|]. rewrite IH. reflexivity. }
  rewrite E. reflexivity.
Qed.

(* The state in which an error may be pending, with the handlers as they were. *)
Definition after (e0 e : env) (x : option error) : Prop :=
  handlers e = handlers e0 /\ Seen e = x /\ (x = None -> exception_code e = SP_ERROR_NONE).
Definition quiet (e : env) : Prop := exception_code e = SP_ERROR_NONE.
Lemma quiet_pending e : quiet e -> hasPendingException e = false.
Proof. unfold quiet, hasPendingException. now intros ->. Qed.
Lemma seen_quiet e : Seen e = None -> quiet e.
Proof. unfold Seen, quiet, hasPendingException. destruct (Z.eqb_spec (exception_code e) SP_ERROR_NONE); [auto|discriminate]. Qed.
Lemma quiet_seen e : quiet e -> Seen e = None.
Proof. intros Q. unfold Seen. now rewrite quiet_pending. Qed.
Lemma seen_pending e : hasPendingException e = match Seen e with Some _ => true | None => false end.
Proof. unfold Seen. destruct (hasPendingException e); reflexivity. Qed.

Definition correct (strict : bool) (h : host) : Prop := forall e, handlers e <> [] -> quiet e -> real_errors h ->
  exists s x o, means h s x /\ run1 strict h e = Some o /\ seen o = s /\ handlers (o_env o) = handlers e /\ Seen (o_env o) = x /\
    stopped o = match x with Some _ => true | None => false end.
Definition correct_all (strict : bool) (hs : list host) : Prop := forall e, handlers e <> [] -> quiet e ->
  fold_right (fun h P => real_errors h /\ P) True hs ->
  exists s x o, means_all hs s x /\ run strict hs e = Some o /\ seen o = s /\ handlers (o_env o) = handlers e /\ Seen (o_env o) = x /\
    stopped o = match x with Some _ => true | None => false end.
Lemma all_correct strict hs : Forall (correct strict) hs -> correct_all strict hs.
Proof.
  induction 1 as [|h hs C F IH]; intros e N Q R.
  - exists [], None, (mkOut [] e false). cbn. repeat split; [constructor|now apply quiet_seen].
  - cbn in R. destruct R as [R1 R2]. destruct (C e N Q R1) as (s & x & o & M & E & S & HH & X & ST). cbn [run]. rewrite E, ST.
    destruct x as [x|].
    + exists s, (Some x), o. repeat split; auto. now constructor.
    + destruct (IH (o_env o)) as (s' & x' & o' & M' & E' & S' & HH' & X' & ST'); [congruence|now apply seen_quiet|exact R2|].
      rewrite E'. eexists _, x', _. split; [eapply m_next; eauto|]. split; [reflexivity|]. cbn [seen o_env stopped]. split; [congruence|]. split; [congruence|]. split; [congruence|]. exact ST'.
Qed.
Lemma left_scope c e l : handlers e = c :: l -> l <> [] -> handlers (LeaveScope e) = l /\ Seen (LeaveScope e) = (if c then None else Seen e).
Proof.
  intros H N. unfold LeaveScope. rewrite H. destruct l as [|b l]; [congruence|]. cbn. split; [reflexivity|].
  destruct c; unfold Seen, hasPendingException; cbn; reflexivity.
Qed.
Lemma correct_host strict h : correct strict h.
Proof.
  revert h. apply host_all.
  - intros c m e N Q R. cbn [run1]. unfold DispatchReport, check. rewrite (quiet_pending _ Q). cbn [negb]. rewrite orb_true_r.
    destruct (handlers e) as [|b l] eqn:H; [congruence|]. exists [], (Some (c, m)). eexists. split; [constructor|]. split; [reflexivity|].
    cbn. unfold Seen, hasPendingException. cbn. cbn in R. destruct (Z.eqb_spec c SP_ERROR_NONE); [congruence|]. auto.
  - intros b p F e N Q R. rewrite run_scope.
    destruct (all_correct strict b F (EnterScope e)) as (s & x & o & M & E & S & HH & X & ST); [discriminate|exact Q|exact R|].
    rewrite E. rewrite seen_pending, X. cbn [EnterScope handlers] in HH. destruct p, x as [x|]; cbn [andb].
    + unfold Rethrow, check. rewrite HH. rewrite seen_pending, X, orb_true_r.
      destruct (left_scope false (mkEnv (false :: handlers e) (exception_code (o_env o)) (exception_message (o_env o))) (handlers e) eq_refl N) as [L1 L2].
      eexists _, (Some x), _. split; [apply m_pass, M|]. split; [reflexivity|]. cbn [seen o_env stopped]. repeat split; auto; [congruence|].
      rewrite L2. exact X.
    + destruct (left_scope true (o_env o) (handlers e) HH N) as [L1 L2].
      eexists _, None, _. split; [apply m_pass, M|]. split; [reflexivity|]. cbn [seen o_env stopped]. repeat split; auto; congruence.
    + destruct (left_scope true (o_env o) (handlers e) HH N) as [L1 L2].
      eexists _, None, _. split; [apply m_catch, M|]. split; [reflexivity|]. cbn [seen o_env stopped]. repeat split; auto; congruence.
    + destruct (left_scope true (o_env o) (handlers e) HH N) as [L1 L2].
      eexists _, None, _. split; [apply m_catch, M|]. split; [reflexivity|]. cbn [seen o_env stopped]. repeat split; auto; congruence.
  - intros b F e N Q R. rewrite run_execute.
    destruct (all_correct strict b F (clearPendingException (EnterScope (clearPendingException e)))) as (s & x & o & M & E & S & HH & X & ST);
      [discriminate|reflexivity|exact R|].
    rewrite E. cbn [EnterScope clearPendingException handlers] in HH. destruct (left_scope true (o_env o) (handlers e) HH N) as [L1 L2].
    eexists _, None, _. split; [apply m_execute, M|]. split; [reflexivity|]. cbn [seen o_env stopped]. repeat split; auto; congruence.
  - intros b F e N Q R. rewrite run_invoke.
    destruct (all_correct strict b F (clearPendingException e)) as (s & x & o & M & E & S & HH & X & ST); [exact N|reflexivity|exact R|].
    exists s, x, o. split; [apply m_invoke, M|]. auto.
Qed.

Lemma outermost strict body pass msg0 : real_errors (Scope body pass) ->
  exists s x o, means_all body s x /\ run strict [Scope body pass] (mkEnv [] SP_ERROR_NONE msg0) = Some o /\
    seen o = s ++ [x] /\ handlers (o_env o) = [] /\ hasPendingException (o_env o) = false.
Proof.
  intros R. cbn [run]. rewrite run_scope. set (e := mkEnv [] SP_ERROR_NONE msg0).
  destruct (all_correct strict body (proj2 (Forall_forall _ _) (fun h _ => correct_host strict h)) (EnterScope e)) as (s & x & o & M & E & S & HH & X & ST);
    [discriminate|reflexivity|exact R|].
  rewrite E. cbn [EnterScope handlers] in HH. exists s, x.
  assert (RT : (if pass && hasPendingException (o_env o) then Rethrow strict (o_env o) else Some (o_env o)) =
    Some (mkEnv [negb (pass && hasPendingException (o_env o))] (exception_code (o_env o)) (exception_message (o_env o)))).
  { destruct (pass && hasPendingException (o_env o)) eqn:P; cbn [negb].
    - unfold Rethrow, check. rewrite HH. cbn [handlers e]. rewrite andb_true_iff in P. rewrite (proj2 P), orb_true_r. reflexivity.
    - destruct (o_env o) as [h c m]. cbn in HH. now subst h. }
  rewrite RT. cbn [LeaveScope handlers exception_code exception_message stopped].
  destruct (pass && hasPendingException (o_env o)).
  - eexists. split; [exact M|]. split; [reflexivity|]. cbn [seen o_env]. split; [congruence|]. split; reflexivity.
  - eexists. split; [exact M|]. cbn [run]. split; [reflexivity|]. cbn [seen o_env]. split; [rewrite app_nil_r; congruence|]. split; reflexivity.
Qed.

(* The meaning of host code is unique. *)
Scheme means_ind2 := Induction for means Sort Prop with means_all_ind2 := Induction for means_all Sort Prop.
Combined Scheme means_mut from means_ind2, means_all_ind2.
Lemma means_fun : (forall h s x, means h s x -> forall s' x', means h s' x' -> s' = s /\ x' = x) /\
  (forall hs s x, means_all hs s x -> forall s' x', means_all hs s' x' -> s' = s /\ x' = x).
Proof.
  apply means_mut.
  - intros c m s' x' M. inversion M; subst; auto.
  - intros b s e _ IH s' x' M. inversion M as [|? ? ? M1| | |]; subst. destruct (IH _ _ M1); subst; auto.
  - intros b s e _ IH s' x' M. inversion M as [| |? ? ? M1| |]; subst. destruct (IH _ _ M1); subst; auto.
  - intros b s e _ IH s' x' M. inversion M as [| | |? ? ? M1|]; subst. destruct (IH _ _ M1); subst; auto.
  - intros b s e _ IH s' x' M. inversion M as [| | | |? ? ? M1]; subst. destruct (IH _ _ M1); subst; auto.
  - intros s' x' M. inversion M; subst; auto.
  - intros h rest s e _ IH s' x' M. inversion M as [|? ? ? ? M1|? ? ? ? ? M1 M2]; subst; [destruct (IH _ _ M1); subst; auto|destruct (IH _ _ M1); congruence].
  - intros h rest s s0 e _ IH1 _ IH2 s' x' M. inversion M as [|? ? ? ? M1|? ? ? ? ? M1 M2]; subst; [destruct (IH1 _ _ M1); congruence|].
    destruct (IH1 _ _ M1); subst. destruct (IH2 _ _ M2); subst. auto.
Qed.

Lemma second_report e c1 m1 c2 m2 : handlers e <> [] -> quiet e -> c1 <> SP_ERROR_NONE -> c2 <> SP_ERROR_NONE ->
  exists e1 e2, DispatchReport false c1 m1 e = Some e1 /\ DispatchReport false c2 m2 e1 = Some e2 /\ Seen e2 = Some (c2, m2) /\
    DispatchReport true c1 m1 e = Some e1 /\ DispatchReport true c2 m2 e1 = None.
Proof.
  intros N Q C1 C2. unfold DispatchReport, check. rewrite (quiet_pending _ Q). cbn [negb orb].
  destruct (handlers e) as [|b l] eqn:H; [congruence|]. eexists _, _. split; [reflexivity|]. cbn [handlers]. split; [reflexivity|].
  unfold Seen, hasPendingException. cbn [exception_code exception_message].
  destruct (Z.eqb_spec c2 SP_ERROR_NONE); [congruence|]. destruct (Z.eqb_spec c1 SP_ERROR_NONE); [congruence|]. auto.
Qed.
Lemma second_report_exists : exists e c1 m1 c2 m2 e1 e2, handlers e <> [] /\ c1 <> c2 /\
  DispatchReport false c1 m1 e = Some e1 /\ DispatchReport false c2 m2 e1 = Some e2 /\ Seen e2 = Some (c2, m2) /\
  DispatchReport true c2 m2 e1 = None.
Proof.
  assert (N : handlers (mkEnv [true] 0 []) <> []) by discriminate.
  destruct (second_report (mkEnv [true] 0 []) 3 [] 8 [] N eq_refl) as (e1 & e2 & A & B & C & _ & D); [discriminate|discriminate|].
  exists (mkEnv [true] 0 []), 3, [], 8, [], e1, e2. split; [exact N|]. split; [discriminate|]. auto.
Qed.
