(* C50: expansion of macros within macros comes to an end. *)
From Coq Require Import Lia.
From Verif Require Import Base Mac_Model Mac_Spec.

Section Expand.
Variable call : Z -> list Z -> option (list Z * list Z).
Variable macros : list Z.
Hypothesis KNOWN : forall m ts r, call m ts = Some r -> In m macros.
Hypothesis LESS : forall m ts text rest, call m ts = Some (text, rest) -> (length rest <= length ts)%nat.

Lemma in_use_iff : forall used m, in_use used m = true <-> In m used.
Proof.
  intros used m. unfold in_use. rewrite existsb_exists. split.
  - intros (x & H & E). apply Z.eqb_eq in E. subst. exact H.
  - intros H. exists m. split; [exact H|apply Z.eqb_refl].
Qed.
Definition free (used : list Z) : nat := length (filter (fun m => negb (in_use used m)) macros).
Lemma free_less : forall used m, In m macros -> ~ In m used -> (free (m :: used) < free used)%nat.
Proof.
  intros used m I N. unfold free. clear KNOWN. revert I. induction macros as [|x l IH]; intros I; [destruct I|].
  assert (LE : forall l, (length (filter (fun y => negb (in_use (m :: used) y)) l) <= length (filter (fun y => negb (in_use used y)) l))%nat).
  { induction l0 as [|y l0 IL]; [cbn; lia|]. cbn [filter]. replace (in_use (m :: used) y) with ((y =? m) || in_use used y) by reflexivity.
    destruct (y =? m), (in_use used y); cbn [orb negb length]; lia. }
  cbn [filter]. destruct I as [-> |I].
  - replace (in_use (m :: used) m) with true by (symmetry; apply in_use_iff; left; reflexivity).
    replace (in_use used m) with false by (symmetry; apply not_true_iff_false; rewrite in_use_iff; exact N). cbn [negb length].
    specialize (LE l). lia.
  - specialize (IH I). replace (in_use (m :: used) x) with ((x =? m) || in_use used x) by reflexivity.
    destruct (x =? m), (in_use used x); cbn [orb negb length]; lia.
Qed.

Lemma names_cons : forall mm ts ts' below, names ((mm, ts) :: below) = names ((mm, ts') :: below). Proof. reflexivity. Qed.

Lemma frame_ends : forall n k mm ts below, (free (names ((mm, ts) :: below)) <= n)%nat -> (length ts <= k)%nat ->
  exists o, expands call (names ((mm, ts) :: below)) ts o /\
  exists f0, forall fuel out, expand call (f0 + fuel) ((mm, ts) :: below) out = expand call fuel below (out ++ o).
Proof.
  induction n as [n IHn] using lt_wf_ind. induction k as [|k IHk]; intros mm ts below FR L.
  - destruct ts; [|cbn in L; lia]. exists []. split; [constructor|]. exists 1%nat. intros fuel out. rewrite app_nil_r. reflexivity.
  - destruct ts as [|t ts]. { exists []. split; [constructor|]. exists 1%nat. intros fuel out. rewrite app_nil_r. reflexivity. }
    cbn [length] in L. rewrite (names_cons mm (t :: ts) ts) in *. set (used := names ((mm, ts) :: below)) in *.
    assert (WORD : (if in_use used t then None else call t ts) = None -> exists o, expands call used (t :: ts) o /\
      exists f0, forall fuel out, expand call (f0 + fuel) ((mm, t :: ts) :: below) out = expand call fuel below (out ++ o)).
    { intros W. destruct (IHk mm ts below FR ltac:(lia)) as (o & X & f0 & R). exists (t :: o). split.
      - apply x_word; [|exact X]. destruct (in_use used t) eqn:U; [left; apply in_use_iff, U|right; exact W].
      - exists (S f0). intros fuel out. cbn [Nat.add expand]. change (names ((mm, t :: ts) :: below)) with used. rewrite W, R, <- app_assoc. reflexivity. }
    destruct (in_use used t) eqn:U; [apply WORD; reflexivity|]. destruct (call t ts) as [[text rest]|] eqn:CL; [|apply WORD; reflexivity].
    clear WORD. assert (NI : ~ In t used) by (rewrite <- in_use_iff, U; discriminate).
    pose proof (free_less used t (KNOWN _ _ _ CL) NI) as FL. pose proof (LESS _ _ _ _ CL) as LR.
    destruct (IHn (free (t :: used)) ltac:(lia) (length text) (Some t) text ((mm, rest) :: below) (le_n _) (le_n _)) as (o1 & X1 & f1 & R1).
    destruct (IHk mm rest below FR ltac:(lia)) as (o2 & X2 & f2 & R2).
    exists (o1 ++ o2). split; [eapply x_macro; eauto|].
    exists (S (f1 + f2)). intros fuel out. cbn [Nat.add expand]. change (names ((mm, t :: ts) :: below)) with used. rewrite U, CL.
    rewrite <- Nat.add_assoc, R1, R2, app_assoc. reflexivity.
Qed.
Theorem expansion_ends : forall text, exists fuel out, expand call fuel [(None, text)] [] = Some out /\ expands call [] text out.
Proof.
  intros text. destruct (frame_ends (free []) (length text) None text [] (le_n _) (le_n _)) as (o & X & f0 & R).
  exists (f0 + 1)%nat, o. split; [rewrite R; reflexivity|exact X].
Qed.
End Expand.

Lemma expands_one : forall call used ts o1, expands call used ts o1 -> forall o2, expands call used ts o2 -> o1 = o2.
Proof.
  induction 1 as [used|used t ts out W X IH|used t ts text rest o1 o2 N CL X1 IH1 X2 IH2]; intros o' Y; inversion Y; subst; try reflexivity.
  - f_equal. apply IH. assumption.
  - exfalso. destruct W; [contradiction|congruence].
  - exfalso. match goal with H : In t used \/ _ |- _ => destruct H; [contradiction|congruence] end.
  - match goal with H : call t ts = Some (?a, ?b) |- _ => rewrite CL in H; injection H as <- <- end. f_equal; auto.
Qed.
