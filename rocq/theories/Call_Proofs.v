(* C04, C22: proofs. *)
From Verif Require Import Base Base_Proofs Rt_Model Rt_Spec Rt_Proofs Str_Model Str_Spec Str_Proofs Exc_Model Call_Model Call_Spec Array_Exec.
From Coq Require Import ZifyBool.
Ltac Zify.zify_post_hook ::= Z.div_mod_to_equations.

Definition J (s : rt) : Prop := layout s /\ pointers_ok s.
Ltac hsimp := cbn [h_rt h_env h_obj set_rt set_env set_obj] in *.

Lemma quiet_report strict e h : quiet h -> exists h', report strict e h = Ok tt h' /\ reports h h' e.
Proof.
  intros Q. unfold report, DispatchReport, check. unfold quiet in Q. rewrite Q.
  replace (negb strict || negb false) with true by (destruct strict; reflexivity).
  eexists. split; [reflexivity|]. split; [reflexivity|]. split; [reflexivity|]. hsimp.
  destruct (handlers (h_env h)) as [|c r] eqn:E; [split; [exact E|congruence]|].
  split; [reflexivity|]. intros _. unfold Seen, hasPendingException. cbn. destruct e; reflexivity.
Qed.

(* ---- The runtime's Invoke ---- *)
Lemma put_params_ok ps : forall a s, 0 <= a -> a + 4 * Z.of_nat (length ps) <= mem_size s -> Forall is_i32 ps ->
  exists s', put_params a ps s = Ok tt s' /\ s' = set_mem (mem s') s /\
    (forall i, (i < length ps)%nat -> load32 (mem s') (a + 4 * Z.of_nat i) = nth i ps 0) /\
    (forall x, x < a \/ a + 4 * Z.of_nat (length ps) <= x -> mem s' x = mem s x).
Proof.
  induction ps as [|p ps IH]; intros a s A L F; cbn [put_params].
  - exists s. split; [reflexivity|]. split; [destruct s; reflexivity|]. split; [cbn; lia|reflexivity].
  - cbn [length] in L. unfold bind at 1. unfold wr32. rewrite in_mem_true by lia. inversion F as [|? ? F1 F2]; subst.
    destruct (IH (a + 4) (set_mem (store32 (mem s) a p) s)) as (s' & E & S & V & O); [lia|wsimp; lia|assumption|].
    exists s'. split; [exact E|]. split; [rewrite S; destruct s; reflexivity|]. wsimp. split.
    + intros [|i] Hi; cbn [nth].
      * replace (a + 4 * Z.of_nat 0) with a by lia.
        rewrite (load32_ext (mem s') (store32 (mem s) a p)) by (intros; apply O; lia).
        rewrite load32_store32_same. now apply wrap32_id.
      * cbn [length] in Hi. rewrite <- (V i) by lia. f_equal. lia.
    + intros x Hx. cbn [length] in Hx. rewrite O by lia. apply store32_out. lia.
Qed.

Lemma restored s h2 : regs_eq s (set_sp (sp s) (set_hp (hp s) (set_frm (frm s) (set_hp_scope (hp_scope s) (h_rt h2))))).
Proof. repeat split; reflexivity. Qed.

Definition outcome_kept (h h2 h' : hst) : Prop :=
  regs_eq (h_rt h) (h_rt h') /\ same_plugin (h_rt h2) (h_rt h') /\ mem (h_rt h') = mem (h_rt h2) /\
  h_obj h' = h_obj h2 /\ h_env h' = h_env h2.

Lemma rt_invoke strict t callee params h :
  let s := h_rt h in let n := Z.of_nat (length params) in
  quiet h -> J s -> 4 * (n + 1) < two31 - 64 -> Forall is_i32 params ->
  (ready t s n -> exists h1, delivered params s (h_rt h1) /\ h_obj h1 = h_obj h /\ h_env h1 = h_env h /\
     (forall ok h2, callee h1 = Ok ok h2 -> exists h', RtInvoke strict t callee params h = Ok ok h' /\ outcome_kept h h2 h')) /\
  (~ ready t s n -> exists h' e, RtInvoke strict t callee params h = Ok false h' /\ reports h h' e).
Proof.
  intros s n Q [L P] N F. unfold RtInvoke. fold s n.
  assert (NN : 0 <= n) by (unfold n; lia).
  rewrite (wrap32_id (hp s + 64)) by (dlay; bnd).
  rewrite (wrap32_id (sp s - 4 * (n + 1))) by (dlay; bnd).
  assert (QC : set_env (clearPendingException (h_env h)) h = h).
  { unfold quiet, hasPendingException in Q. destruct h as [r [hs c m] o]. unfold set_env, clearPendingException. cbn in *.
    unfold SP_ERROR_NONE in *. replace c with 0 by lia. reflexivity. }
  split.
  - intros (T & K & PA & M & ROOM). rewrite T, K, PA, M. cbn [negb].
    replace (hp s + 64 >? sp s - 4 * (n + 1)) with false by lia. rewrite QC.
    unfold bind at 1, put. cbv beta iota. unfold bind at 1, get. cbv beta iota. wsimp.
    unfold bind at 1, wr32. rewrite in_mem_true by (wsimp; dlay; lia). wsimp.
    edestruct (put_params_ok params (sp s - 4 * (n + 1) + 4)
      (set_mem (store32 (mem s) (sp s - 4 * (n + 1)) n) (set_sp (sp s - 4 * (n + 1)) s))) as (s1 & E & S & V & O);
      [dlay; lia|wsimp; dlay; lia|assumption|].
    exists (set_rt s1 h). hsimp. wsimp.
    split; [|split; [reflexivity|split; [reflexivity|]]].
    + rewrite S. unfold delivered. fold n. wsimp. split; [repeat split; reflexivity|].
      split; [reflexivity|]. split; [reflexivity|]. split; [reflexivity|]. split; [reflexivity|]. split; [|split].
      * rewrite (load32_ext (mem s1) (store32 (mem s) (sp s - 4 * (n + 1)) n)) by (intros; apply O; lia).
        rewrite load32_store32_same. apply wrap32_id. unfold is_i32, two31 in *. lia.
      * intros i Hi. rewrite <- (V i Hi). f_equal. lia.
      * intros x Hx. wsimp. rewrite O by lia. apply store32_out. lia.
    + intros ok h2 C. rewrite E, C. eexists. split; [reflexivity|]. split; [apply restored|].
      split; [repeat split; reflexivity|]. split; [reflexivity|]. split; reflexivity.
  - intros NR. assert (X : forall e, exists h' e', (report strict e;;; ret false) h = Ok false h' /\ reports h h' e').
    { intros e. destruct (quiet_report strict e h Q) as (h' & E & R). exists h', e. split; [|exact R].
      unfold bind. rewrite E. reflexivity. }
    destruct (timed_out t) eqn:T; [apply X|]. destruct (known t) eqn:K; cbn [negb]; [|apply X].
    destruct (paused t) eqn:PA; [apply X|]. destruct (hp s + 64 >? sp s - 4 * (n + 1)) eqn:G; [apply X|].
    rewrite QC. destruct (has_method t) eqn:M; cbn [negb]; [|apply X]. exfalso. apply NR. repeat split; auto. lia.
Qed.

(* ---- Small steps ---- *)
Lemma try_ok {A} strict (m : RM A) h a s : m (h_rt h) = Ok a s -> try_rt strict m h = Ok (Some a) (set_rt s h).
Proof. intros E. unfold try_rt. now rewrite E. Qed.
Lemma try_fail {A} strict (m : RM A) h e : m (h_rt h) = Fail e (h_rt h) -> quiet h ->
  exists h', try_rt strict m h = Ok None h' /\ reports h h' e.
Proof.
  intros E Q. unfold try_rt. rewrite E. replace (set_rt (h_rt h) h) with h by (destruct h; reflexivity).
  destruct (quiet_report strict e h Q) as (h' & R & P). exists h'. split; [|exact P]. unfold bind. rewrite R. reflexivity.
Qed.
Lemma heapAlloc_J s n : J s -> 0 <= n <= 8 ->
  heapAlloc n s = if hp s + n + 64 >? sp s then Fail HEAPLOW s else Ok (hp s) (set_hp (hp s + n) s).
Proof.
  intros [L P] N. unfold heapAlloc, bind, get, put, throw_if, ret, STACK_MARGIN.
  rewrite (wrap32_id (hp s + n)) by (dlay; bnd). replace (n <? 0) with false by lia.
  rewrite (wrap32_id (hp s + n + 64)) by (dlay; bnd). destruct (hp s + n + 64 >? sp s); reflexivity.
Qed.
Lemma alloc_array s cells : J s -> small cells ->
  AllocArray cells s = if sp s - hp s - 4 * cells <? 64 then Fail HEAPLOW s
    else Ok (hp s + 4) (set_hp (hp s + 4 + 4 * cells) (set_mem (store32 (mem s) (hp s) cells) s)).
Proof.
  intros [L P] C. unfold small in C. unfold AllocArray, bind, get, put, throw_if, ret, assert_, STACK_MARGIN.
  replace (cells <? 536870911) with true by lia. unfold ret.
  rewrite (u32_id (cells * 4)) by (unfold is_u32, two32; lia).
  rewrite (wrap32_id (sp s - hp s - cells * 4)) by (dlay; bnd).
  replace (sp s - hp s - cells * 4 <? 64) with (sp s - hp s - 4 * cells <? 64) by lia.
  destruct (sp s - hp s - 4 * cells <? 64) eqn:G; [reflexivity|].
  rewrite (wrap32_id cells) by (unfold is_i32, two31; lia).
  unfold wr32. rewrite in_mem_true by (dlay; lia).
  rewrite (wrap32_id (hp s + 4 + cells * 4)) by (dlay; bnd). rewrite (wrap32_id (hp s + 4)) by (dlay; bnd).
  replace (hp s + 4 + cells * 4) with (hp s + 4 + 4 * cells) by lia. destruct s; reflexivity.
Qed.

(* Only the heap grew. *)
Record grown (s s' : rt) : Prop := {
  g_same : same_plugin s s';
  g_sp : sp s' = sp s; g_frm : frm s' = frm s; g_sc : hp_scope s' = hp_scope s;
  g_hp : hp s <= hp s' <= sp s;
  g_mem : forall x, x < hp s \/ hp s' <= x -> mem s' x = mem s x
}.
Lemma same_refl s : same_plugin s s. Proof. repeat split. Qed.
Lemma same_trans a b c : same_plugin a b -> same_plugin b c -> same_plugin a c.
Proof. intros [] []. split; congruence. Qed.
Lemma grown_refl s : J s -> grown s s.
Proof. intros [L P]. split; try reflexivity; [apply same_refl|dlay; lia]. Qed.
Lemma grown_trans a b c : grown a b -> grown b c -> grown a c.
Proof.
  intros [] []. split; try congruence; [eapply same_trans; eauto|lia|].
  intros x X. rewrite g_mem1 by lia. apply g_mem0. lia.
Qed.
Lemma grown_J s s' : J s -> grown s s' -> J s'.
Proof. intros [[] []] [[] ? ? ? ? ?]. split; split; lia. Qed.

Lemma bytes_ext m m' a l : (forall x, a <= x < a + Z.of_nat (length l) -> m' x = m x) -> bytes_at m a l -> bytes_at m' a l.
Proof. intros E B i I. rewrite E by lia. auto. Qed.
Lemma write_shows m a l : bytes_at (write_bytes m a l) a l.
Proof.
  intros i I. replace i with (Z.to_nat (Z.of_nat i)) at 2 by lia. rewrite write_bytes_in by lia. reflexivity.
Qed.
Lemma from_host_ok o n a h : 0 <= n <= Z.of_nat (length (h_obj h o)) -> 0 <= a -> a + n <= mem_size (h_rt h) ->
  from_host o n a h = Ok tt (set_rt (set_mem (write_bytes (mem (h_rt h)) a (firstn (Z.to_nat n) (h_obj h o))) (h_rt h)) h).
Proof.
  intros N A L. unfold from_host. replace (n <=? Z.of_nat (length (h_obj h o))) with true by lia.
  rewrite copy_in_ok; [reflexivity|assumption|]. rewrite firstn_length. lia.
Qed.

(* ---- Placing arguments ---- *)
Definition placed (h h' : hst) (a : arg) (p : Z) : Prop :=
  grown (h_rt h) (h_rt h') /\ h_env h' = h_env h /\ h_obj h' = h_obj h /\ shows (mem (h_rt h')) (h_obj h) a p /\ is_i32 p /\
  hp (h_rt h') = hp (h_rt h) + cost a /\
  ((forall v, a <> ACell v) -> hp (h_rt h) <= p /\ p + arg_bytes a <= hp (h_rt h')).

Lemma ignore_ok {A} (m : RM A) h a s : m (h_rt h) = Ok a s -> ignore_rt m h = Ok tt (set_rt s h).
Proof. intros E. unfold ignore_rt. now rewrite E. Qed.
Lemma nth_snoc {A} (l : list A) x d : nth (length l) (l ++ [x]) d = x.
Proof. rewrite app_nth2 by lia. now rewrite Nat.sub_diag. Qed.

Lemma place_ok strict a h : J (h_rt h) -> quiet h -> proper (h_obj h) a ->
  (exists h' e, place strict a h = Ok None h' /\ reports h h' e /\ sp (h_rt h) < hp (h_rt h) + cost a + 64) \/
  (exists h' p, place strict a h = Ok (Some p) h' /\ placed h h' a p).
Proof.
  intros Hs Q PR. assert (JJ := Hs). destruct JJ as [L P]. set (s := h_rt h) in *. destruct a as [v|o b|o n b|o n c u bi b|v]; cbn [place proper] in *.
  - right. exists h, v. split; [reflexivity|]. split; [now apply grown_refl|]. split; [reflexivity|]. split; [reflexivity|].
    split; [reflexivity|]. split; [exact PR|]. split; [cbn [cost]; lia|]. intros NC. exfalso. apply (NC v). reflexivity.
  - pose proof (heapAlloc_J s 4 Hs ltac:(lia)) as E. destruct (hp s + 4 + 64 >? sp s) eqn:G.
    + left. destruct (try_fail strict (heapAlloc 4) h HEAPLOW E Q) as (h' & T & R). exists h', HEAPLOW.
      split; [unfold bind; rewrite T; reflexivity|]. split; [exact R|]. cbn [cost]. fold s. try fold cells. lia.
    + right. unfold bind at 1. rewrite (try_ok strict _ h _ _ E). cbv beta iota. unfold bind.
      rewrite from_host_ok; [|hsimp; lia|dlay; lia|hsimp; wsimp; dlay; lia]. eexists _, _. split; [reflexivity|].
      hsimp. wsimp. assert (LN : length (firstn (Z.to_nat 4) (h_obj h o)) = 4%nat) by (rewrite firstn_length; lia).
      split; [|split; [reflexivity|split; [reflexivity|split; [|split; [dlay; bnd|split; [hsimp; cbn [cost]; try fold cells; unfold s1 || idtac; wsimp; fold s; lia|]]]]]].
      * hsimp. fold s. split; wsimp; try reflexivity; [repeat split; reflexivity|lia|].
        intros x X. apply write_bytes_out. rewrite LN. lia.
      * hsimp. wsimp. apply write_shows.
      * hsimp. wsimp. cbn [arg_bytes]. fold s. lia.
  - destruct PR as [SM LE]. pose proof (alloc_array s n Hs SM) as E. unfold small in SM. destruct (sp s - hp s - 4 * n <? 64) eqn:G.
    + left. destruct (try_fail strict (AllocArray n) h HEAPLOW E Q) as (h' & T & R). exists h', HEAPLOW.
      split; [unfold bind; rewrite T; reflexivity|]. split; [exact R|]. cbn [cost]. fold s. try fold cells. lia.
    + right. unfold bind at 1. rewrite (try_ok strict _ h _ _ E). cbv beta iota. unfold bind.
      rewrite from_host_ok; [|hsimp; lia|dlay; lia|hsimp; wsimp; dlay; lia]. eexists _, _. split; [reflexivity|].
      hsimp. wsimp. assert (LN : Z.of_nat (length (firstn (Z.to_nat (n * 4)) (h_obj h o))) = n * 4) by (rewrite firstn_length; lia).
      split; [|split; [reflexivity|split; [reflexivity|split; [|split; [dlay; bnd|split; [hsimp; cbn [cost]; try fold cells; unfold s1 || idtac; wsimp; fold s; lia|]]]]]].
      * hsimp. fold s. split; wsimp; try reflexivity; [repeat split; reflexivity|lia|].
        intros x X. rewrite write_bytes_out by (rewrite LN; lia). apply store32_out. fold s. lia.
      * hsimp. wsimp. apply write_shows.
      * hsimp. wsimp. cbn [arg_bytes]. fold s. lia.
  - destruct PR as (NP & SM & PU & PC & PB & PBK). unfold small in SM. assert (SC : small ((n + 3) / 4)) by (unfold small; lia).
    pose proof (alloc_array s ((n + 3) / 4) Hs SC) as E. set (cells := (n + 3) / 4) in *.
    assert (CE : n <= 4 * cells < n + 4) by (unfold cells; lia). 
    destruct (sp s - hp s - 4 * cells <? 64) eqn:G.
    + left. destruct (try_fail strict (AllocArray cells) h HEAPLOW E Q) as (h' & T & R). exists h', HEAPLOW.
      split; [unfold bind; rewrite T; reflexivity|]. split; [exact R|]. cbn [cost]. fold s. try fold cells. lia.
    + right. unfold bind at 1. rewrite (try_ok strict _ h _ _ E). cbv beta iota.
      set (s1 := set_hp (hp s + 4 + 4 * cells) (set_mem (store32 (mem s) (hp s) cells) s)) in *.
      assert (PA : plugin_address s1 (hp s + 4)) by (unfold plugin_address, s1; wsimp; dlay; lia).
      assert (FIN : forall m, (forall x, x < hp s + 4 \/ hp s + 4 + n <= x -> m x = mem s1 x) ->
        shows m (h_obj h) (AStr o n c u bi b) (hp s + 4) -> placed h (set_rt (set_mem m s1) h) (AStr o n c u bi b) (hp s + 4)).
      { intros m O SH. split; [|split; [reflexivity|split; [reflexivity|split; [exact SH|split; [dlay; bnd|split; [hsimp; cbn [cost]; try fold cells; unfold s1 || idtac; wsimp; fold s; lia|]]]]]].
        - hsimp. fold s. split; unfold s1; wsimp; try reflexivity; [repeat split; reflexivity|lia|].
          intros x X. rewrite O by lia. unfold s1. wsimp. apply store32_out. lia.
        - intros _. hsimp. unfold s1. wsimp. cbn [arg_bytes]. fold s. lia. }
      destruct c; [destruct u|]; [|destruct bi|].
      * destruct (PU eq_refl eq_refl) as (N2 & chars & UT & CS). cbv beta. hsimp. rewrite CS.
        destruct (utf8_ok s1 (hp s + 4) n chars PA UT N2) as (s2 & text & R & LF & ST & B1 & B2 & B3);
          [unfold two63; lia|unfold s1; wsimp; dlay; unfold two31 in *; lia|unfold s1; wsimp; dlay; lia|dlay; lia|].
        unfold bind. rewrite (ignore_ok _ (set_rt s1 h) _ _ R). eexists _, _. split; [reflexivity|].
        change (set_rt s2 (set_rt s1 h)) with (set_rt s2 h). rewrite ST. apply FIN.
        { intros x X. apply B3. lia. }
        cbn [shows]. intros chars' UT' CS'. assert (concat chars' = concat chars) as CC by congruence.
        destruct (utf8_ok s1 (hp s + 4) n chars' PA UT' N2) as (s3 & text' & R' & LF' & ST' & B1' & B2' & B3');
          [unfold two63; lia|unfold s1; wsimp; dlay; unfold two31 in *; lia|unfold s1; wsimp; dlay; lia|dlay; lia|].
        rewrite CC in R'. assert (s3 = s2) as -> by congruence. exists text'. split; [exact LF'|].
        intros i I. rewrite app_length in I. cbn [length] in I. destruct (Nat.eq_dec i (length text')) as [->|NE].
        -- rewrite nth_snoc. exact B2'.
        -- rewrite app_nth1 by lia. apply B1'. lia.
      * unfold bind. rewrite from_host_ok; [|hsimp; specialize (PB eq_refl eq_refl eq_refl); lia|dlay; lia|hsimp; unfold s1; wsimp; dlay; lia].
        eexists _, _. split; [reflexivity|]. hsimp.
        match goal with |- placed _ (set_rt (set_mem ?m s1) _) _ _ => apply (FIN m) end.
        { intros x X. apply write_bytes_out. rewrite firstn_length. lia. }
        cbn [shows]. apply write_shows.
      * destruct (PC eq_refl eq_refl eq_refl) as (t & CS). cbv beta. hsimp. rewrite CS.
        destruct (copy_ok s1 (hp s + 4) n t PA) as (s2 & R & CO); [lia|unfold s1; wsimp; dlay; lia|].
        replace (n =? 0) with false in CO by lia. destruct CO as [ST B].
        unfold bind. rewrite (ignore_ok _ (set_rt s1 h) _ _ R). eexists _, _. split; [reflexivity|].
        change (set_rt s2 (set_rt s1 h)) with (set_rt s2 h). rewrite ST. set (tx := firstn (Z.to_nat (n - 1)) t) in *.
        assert (TL : Z.of_nat (length tx) <= n - 1) by (unfold tx; rewrite firstn_length; lia). apply FIN.
        { intros x X. rewrite B. replace ((hp s + 4 <=? x) && (x <? hp s + 4 + Z.of_nat (length tx) + 1)) with false by lia. reflexivity. }
        cbn [shows]. intros t' CS'. assert (t' = t) as -> by congruence. fold tx.
        intros i I. rewrite app_length in I. cbn [length] in I. rewrite B.
        replace ((hp s + 4 <=? hp s + 4 + Z.of_nat i) && (hp s + 4 + Z.of_nat i <? hp s + 4 + Z.of_nat (length tx) + 1)) with true by lia.
        f_equal. lia.
      * unfold bind. erewrite ignore_ok; [|hsimp; unfold wr32; rewrite in_mem_true; [reflexivity|dlay; lia|unfold s1; wsimp; dlay; lia]].
        eexists _, _. split; [reflexivity|]. hsimp.
        match goal with |- placed _ (set_rt (set_mem ?m s1) _) _ _ => destruct (Z_le_gt_dec 4 n) end.
        -- match goal with |- placed _ (set_rt (set_mem ?m s1) _) _ _ => apply (FIN m) end.
           { intros x X. apply store32_out. lia. }
           cbn [shows]. unfold store32. replace ((hp s + 4 <=? hp s + 4) && (hp s + 4 <? hp s + 4 + 4)) with true by lia.
           replace (hp s + 4 - (hp s + 4)) with 0 by lia. reflexivity.
        -- split; [|split; [reflexivity|split; [reflexivity|split; [|split; [dlay; bnd|split; [hsimp; cbn [cost]; try fold cells; unfold s1 || idtac; wsimp; fold s; lia|]]]]]].
           ++ hsimp. fold s. split; unfold s1; wsimp; try reflexivity; [repeat split; reflexivity|lia|].
              intros x X. rewrite store32_out by lia. apply store32_out. lia.
           ++ hsimp. wsimp. cbn [shows]. unfold store32. replace ((hp s + 4 <=? hp s + 4) && (hp s + 4 <? hp s + 4 + 4)) with true by lia.
              replace (hp s + 4 - (hp s + 4)) with 0 by lia. reflexivity.
           ++ intros _. hsimp. unfold s1. wsimp. cbn [arg_bytes]. fold s. lia.
  - destruct PR.
Qed.

Lemma shows_ext m m' obj a p : proper obj a -> (forall x, p <= x < p + arg_bytes a -> m' x = m x) -> shows m obj a p -> shows m' obj a p.
Proof.
  destruct a as [v|o b|o n b|o n c u bi b|v]; cbn [proper shows arg_bytes]; intros PR E SH; [exact SH| | | |exact SH].
  - eapply bytes_ext; [|exact SH]. intros x X. apply E. rewrite firstn_length in X. lia.
  - eapply bytes_ext; [|exact SH]. intros x X. apply E. rewrite firstn_length in X. lia.
  - destruct PR as (NP & _ & PU & _). destruct c; [destruct u; [|destruct bi]|].
    + intros chars UT CS. destruct (SH chars UT CS) as (text & LF & B). exists text. split; [exact LF|].
      eapply bytes_ext; [|exact B]. intros x X. apply E. destruct LF as (k & _ & _ & LE & _). rewrite app_length in X. cbn [length] in X. lia.
    + eapply bytes_ext; [|exact SH]. intros x X. apply E. rewrite firstn_length in X. lia.
    + intros t CS. eapply bytes_ext; [|exact (SH t CS)]. intros x X. apply E. rewrite app_length, firstn_length in X. cbn [length] in X. lia.
    + rewrite E by lia. exact SH.
Qed.
Lemma laid_lower lo lo' args ps hi : lo' <= lo -> laid_out lo args ps hi -> laid_out lo' args ps hi.
Proof.
  intros L H. revert lo' L. induction H; intros lo' L.
  - apply lay_nil. lia.
  - apply lay_cell. apply IHlaid_out. lia.
  - apply lay_ref; auto. lia.
Qed.

Definition stopped_at (h h' : hst) : Prop :=
  exists e, grown (h_rt h) (h_rt h') /\ h_obj h' = h_obj h /\ handlers (h_env h') = handlers (h_env h) /\
    (handlers (h_env h) <> [] -> Seen (h_env h') = Some (err_code e, [])).
Definition all_placed (h h' : hst) (args : list arg) (ps : list Z) : Prop :=
  grown (h_rt h) (h_rt h') /\ h_env h' = h_env h /\ h_obj h' = h_obj h /\
  Forall2 (shows (mem (h_rt h')) (h_obj h)) args ps /\ Forall is_i32 ps /\ laid_out (hp (h_rt h)) args ps (hp (h_rt h')) /\
  hp (h_rt h') = hp (h_rt h) + costs args /\ length ps = length args.
Lemma cost_nonneg obj a : proper obj a -> 0 <= cost a.
Proof. destruct a; cbn [proper cost]; unfold small; intros; lia. Qed.
Lemma costs_nonneg obj args : Forall (proper obj) args -> 0 <= costs args.
Proof. induction 1; cbn [costs]; [lia|]. apply cost_nonneg in H. lia. Qed.

Lemma place_all_ok strict args : forall h, J (h_rt h) -> quiet h -> Forall (proper (h_obj h)) args ->
  (exists h', place_all strict args h = Ok None h' /\ stopped_at h h' /\ sp (h_rt h) < hp (h_rt h) + costs args + 64) \/
  (exists h' ps, place_all strict args h = Ok (Some ps) h' /\ all_placed h h' args ps).
Proof.
  induction args as [|a args IH]; intros h Hs Q F; cbn [place_all].
  - right. exists h, []. split; [reflexivity|]. split; [now apply grown_refl|]. split; [reflexivity|]. split; [reflexivity|].
    split; [constructor|]. split; [constructor|]. split; [constructor; lia|]. split; [cbn; lia|reflexivity].
  - inversion F as [|? ? F1 F2]; subst. pose proof (costs_nonneg _ _ F2) as CN. cbn [costs].
    destruct (place_ok strict a h Hs Q F1) as [(h' & e & E & R & LOW)|(h1 & p & E & G & EE & EO & SH & PI & HC & RG)].
    + left. exists h'. unfold bind. rewrite E. split; [reflexivity|]. split; [|lia]. destruct R as (R1 & R2 & R3 & R4).
      exists e. rewrite R1. split; [now apply grown_refl|]. auto.
    + assert (Hs1 : J (h_rt h1)) by (eapply grown_J; eauto). assert (Q1 : quiet h1) by (unfold quiet; now rewrite EE).
      assert (F3 : Forall (proper (h_obj h1)) args) by now rewrite EO.
      destruct (IH h1 Hs1 Q1 F3) as [(h' & E' & S' & LOW)|(h' & ps & E' & G' & EE' & EO' & SH' & PI' & LO' & HC' & LN')].
      * left. exists h'. unfold bind. rewrite E, E'. split; [reflexivity|]. rewrite (g_sp _ _ G) in LOW. split; [|lia].
        destruct S' as (e & S1 & S2 & S3 & S4). rewrite EE in S3, S4. exists e. split; [eapply grown_trans; eauto|].
        split; [congruence|]. split; [exact S3|exact S4].
      * right. exists h', (p :: ps). unfold bind. rewrite E, E'. split; [reflexivity|].
        split; [eapply grown_trans; eauto|]. split; [congruence|]. split; [congruence|].
        assert (SM : shows (mem (h_rt h')) (h_obj h) a p).
        { destruct a as [v|o b|o n b|o n c u bi b|v]; try exact SH;
          (eapply shows_ext; [exact F1| |exact SH]; intros x X; apply (g_mem _ _ G'); destruct (RG ltac:(discriminate)) as [RG1 RG2]; cbn [arg_bytes] in X, RG2; lia). }
        split; [constructor; [exact SM|now rewrite EO in SH']|]. split; [now constructor|]. split; [|split; [cbn [costs]; lia|cbn; lia]].
        destruct a as [v|o b|o n b|o n c u bi b|v].
        -- cbn [shows] in SH. subst p. apply lay_cell. eapply laid_lower; [|exact LO']. cbn [cost] in HC. lia.
        -- destruct (RG ltac:(discriminate)) as [RG1 RG2]. apply lay_ref; [discriminate|lia|]. eapply laid_lower; [|exact LO']. lia.
        -- destruct (RG ltac:(discriminate)) as [RG1 RG2]. apply lay_ref; [discriminate|lia|]. eapply laid_lower; [|exact LO']. lia.
        -- destruct (RG ltac:(discriminate)) as [RG1 RG2]. apply lay_ref; [discriminate|lia|]. eapply laid_lower; [|exact LO']. lia.
        -- destruct F1.
Qed.

(* ---- Copying back ---- *)
Lemma read_len m a n : length (read_bytes m a n) = n.
Proof. unfold read_bytes. now rewrite map_length, seq_length. Qed.
Lemma proper_back obj a : proper obj a -> copies_back a = true -> 0 <= arg_bytes a <= Z.of_nat (length (obj (arg_obj a))) /\ (forall v, a <> ACell v).
Proof.
  destruct a as [v|o b|o n b|o n c u bi b|v]; cbn [proper copies_back arg_bytes arg_obj]; unfold small; intros P C; try discriminate;
    (split; [|discriminate]); try lia. destruct P as (NP & SM & _ & _ & _ & PB). specialize (PB C). lia.
Qed.
Lemma bytes_nonneg obj a : proper obj a -> 0 <= arg_bytes a.
Proof. destruct a; cbn [proper arg_bytes]; unfold small; intros; lia. Qed.
Lemma laid_le lo args ps hi obj : laid_out lo args ps hi -> Forall (proper obj) args -> lo <= hi.
Proof.
  induction 1; intros F; [assumption| |]; inversion F as [|? ? F1 F2]; subst; auto.
  specialize (IHlaid_out F2). apply bytes_nonneg in F1. lia.
Qed.
Lemma copy_back_ok args : forall ps lo hi obj h, laid_out lo args ps hi -> 0 <= lo -> hi <= mem_size (h_rt h) ->
  Forall (proper obj) args -> (forall o, (length (obj o) <= length (h_obj h o))%nat) ->
  exists h', copy_back args ps h = Ok tt h' /\ h_rt h' = h_rt h /\ h_env h' = h_env h /\
    h_obj h' = copied_back (mem (h_rt h)) args ps (h_obj h).
Proof.
  induction args as [|a args IH]; intros ps lo hi obj h LO L0 HM F LE.
  - exists h. destruct ps; cbn; auto.
  - destruct ps as [|p ps]; [inversion LO|]. inversion F as [|? ? F1 F2]; subst. cbn [copy_back copied_back].
    pose proof (bytes_nonneg _ _ F1) as BN.
    destruct (copies_back a) eqn:CB.
    + destruct (proper_back _ _ F1 CB) as [AB NC].
      assert (X : lo <= p /\ laid_out (p + arg_bytes a) args ps hi).
      { inversion LO; subst; [exfalso; eapply NC; reflexivity|auto]. }
      destruct X as [LP LO']. pose proof (laid_le _ _ _ _ _ LO' F2) as HI. specialize (LE (arg_obj a)) as LEa.
      unfold bind at 1. unfold to_host.
      replace ((arg_bytes a <=? Z.of_nat (length (h_obj h (arg_obj a)))) && in_mem (h_rt h) p (arg_bytes a)) with true
        by (symmetry; apply andb_true_intro; split; [lia|apply in_mem_true; lia]).
      destruct (IH ps (p + arg_bytes a) hi obj (set_obj (arg_obj a) (read_bytes (mem (h_rt h)) p (Z.to_nat (arg_bytes a)) ++
         skipn (Z.to_nat (arg_bytes a)) (h_obj h (arg_obj a))) h)) as (h' & E & R1 & R2 & R3); [exact LO'|lia|exact HM|exact F2| |].
      { intros o. hsimp. destruct (Nat.eqb_spec o (arg_obj a)) as [->|NE]; [|apply LE].
        rewrite app_length, read_len, skipn_length. lia. }
      exists h'. split; [exact E|]. split; [exact R1|]. split; [exact R2|]. exact R3.
    + assert (X : laid_out lo args ps hi).
      { inversion LO; subst; [assumption|]. eapply laid_lower; [|eassumption]. lia. }
      destruct (IH ps lo hi obj h X L0 HM F2 LE) as (h' & E & R). exists h'. split; [exact E|exact R].
Qed.

(* ---- The whole call ---- *)
Lemma enter_ok s : J s -> hp s + 68 <= sp s -> is_i32 (hp_scope s) ->
  enterHeapScope s = Ok tt (set_mem (store32 (mem s) (hp s) (hp_scope s)) (set_hp_scope (hp s) (set_hp (hp s + 4) s))).
Proof.
  intros Hs ROOM SC. pose proof (heapAlloc_J s 4 Hs ltac:(lia)) as E. replace (hp s + 4 + 64 >? sp s) with false in E by lia.
  destruct Hs as [L P]. unfold enterHeapScope, bind, get. rewrite E. unfold put.
  rewrite throwIfBadAddress_ok by (unfold script_address, in_gap; wsimp; dlay; lia).
  unfold wr32. rewrite in_mem_true by (wsimp; dlay; lia). reflexivity.
Qed.
Lemma leave_ok s sc : layout s -> pointers_ok s -> 0 <= hp_scope s < hp s -> load32 (mem s) (hp_scope s) = sc ->
  sc = -1 \/ 0 <= sc < hp_scope s ->
  leaveHeapScope s = Ok tt (set_hp_scope sc (set_hp (hp_scope s) s)).
Proof.
  intros L P B LD SC. unfold leaveHeapScope, bind, get.
  rewrite throwIfBadAddress_ok by (unfold script_address, in_gap; dlay; lia).
  unfold rd32. rewrite in_mem_true by (dlay; lia). rewrite LD. unfold put.
  destruct (Z.eqb_spec sc (-1)) as [E|NE]; [destruct s; reflexivity|].
  rewrite throwIfBadAddress_ok by (unfold script_address, in_gap; wsimp; dlay; lia). destruct s; reflexivity.
Qed.
Lemma hassert_ok strict h : hassert strict true h = Ok tt h.
Proof. unfold hassert. destruct strict; reflexivity. Qed.
Definition entered (s : rt) : rt := set_mem (store32 (mem s) (hp s) (hp_scope s)) (set_hp_scope (hp s) (set_hp (hp s + 4) s)).
Lemma scope_i32 s : J s -> scope_ok s -> is_i32 (hp_scope s).
Proof. intros [L P] [->|S]; [unfold is_i32, two31; lia|dlay; bnd]. Qed.
(* After leaving the scope the state is the caller's, up to the gap. *)
Lemma leave_entered s s2 : J s -> scope_ok s -> hp s + 68 <= sp s -> grown (entered s) s2 ->
  leaveHeapScope s2 = Ok tt (set_hp_scope (hp_scope s) (set_hp (hp s) s2)).
Proof.
  intros Hs SC ROOM G. assert (JJ := Hs). destruct JJ as [L P]. destruct G as [[] G1 G2 G3 G4 G5]. unfold entered in *. wsimp.
  rewrite (leave_ok s2 (hp_scope s)).
  - rewrite G3. reflexivity.
  - destruct L. split; lia.
  - dlay. split; lia.
  - dlay. lia.
  - rewrite G3. rewrite (load32_ext (mem s2) (store32 (mem s) (hp s) (hp_scope s))) by (intros; apply G5; lia).
    rewrite load32_store32_same. apply wrap32_id. now apply scope_i32.
  - rewrite G3. destruct SC; lia.
Qed.
Lemma refuse_at s s2 : J s -> grown (entered s) s2 ->
  let s3 := set_hp_scope (hp_scope s) (set_hp (hp s) s2) in
  regs_eq s s3 /\ same_plugin s s3 /\ (forall x, ~ in_gap s x -> mem s3 x = mem s x).
Proof.
  intros [L P] [[] G1 G2 G3 G4 G5] s3. unfold entered, s3, regs_eq in *. wsimp. split; [|split].
  - auto.
  - split; assumption.
  - intros x X. unfold in_gap in X. rewrite G5 by lia. apply store32_out. lia.
Qed.

Lemma invoke_error strict t callee c h : quiet h -> paused t = true \/ error c = true ->
  exists h' e, Invoke strict t callee c h = Ok false h' /\ reports h h' e /\ (paused t = false -> e = PARAMS_MAX).
Proof.
  intros Q PE. unfold Invoke, bind at 1, pending. unfold quiet in Q. rewrite Q. unfold bind at 1. rewrite hassert_ok.
  destruct (paused t) eqn:PA.
  - destruct (quiet_report strict NOT_RUNNABLE h Q) as (h' & R & RR). exists h', NOT_RUNNABLE. unfold bind. rewrite R.
    split; [reflexivity|]. split; [exact RR|discriminate].
  - destruct PE as [PE|PE]; [discriminate|]. rewrite PE. destruct (quiet_report strict PARAMS_MAX h Q) as (h' & R & RR).
    exists h', PARAMS_MAX. unfold bind. rewrite R. split; [reflexivity|]. split; [exact RR|auto].
Qed.

Section Whole.
Variables (strict : bool) (t : target) (callee : HM bool) (args : list arg) (h : hst).
Let s := h_rt h.
Hypothesis Q : quiet h.
Hypothesis Hs : J s.
Hypothesis SC : scope_ok s.
Hypothesis FP : Forall (proper (h_obj h)) args.
Hypothesis N32 : (length args <= 32)%nat.
Hypothesis ROOM : hp s + 68 <= sp s.

Let h0 := set_rt (entered s) h.
Lemma h0_facts : J (h_rt h0) /\ quiet h0 /\ Forall (proper (h_obj h0)) args.
Proof.
  unfold h0. hsimp. split; [|split; assumption]. destruct Hs as [[] []]. unfold entered. split; split; wsimp; lia.
Qed.
Lemma invoke_steps : paused t = false ->
  Invoke strict t callee (mkArgs args false) h =
  (result <- (ps <- place_all strict args;;
               match ps with
               | None => ret false
               | Some ps =>
                 ok <- RtInvoke strict t callee ps;;
                 if negb ok then ret false
                 else was <- pending;; hassert strict (negb was);;; copy_back args ps;;; was <- pending;; ret (negb was)
               end);;
    try_rt strict leaveHeapScope;;;
    ret result) h0.
Proof.
  intros PA. unfold Invoke, bind at 1, pending. assert (Q1 := Q). unfold quiet in Q1. rewrite Q1. unfold bind at 1. rewrite hassert_ok.
  rewrite PA. cbn [error argv]. unfold bind at 1.
  rewrite (try_ok strict enterHeapScope h tt (entered s)); [reflexivity|]. apply enter_ok; auto. now apply scope_i32.
Qed.
Lemma refused_end h' e : grown (entered s) (h_rt h') -> h_obj h' = h_obj h -> handlers (h_env h') = handlers (h_env h) ->
  (handlers (h_env h) <> [] -> Seen (h_env h') = Some (err_code e, [])) ->
  exists h'', (try_rt strict leaveHeapScope;;; ret false) h' = Ok false h'' /\ refused h h''.
Proof.
  intros G O H S. unfold bind. rewrite (try_ok strict _ h' _ _ (leave_entered s (h_rt h') Hs SC ROOM G)).
  eexists. split; [reflexivity|]. destruct (refuse_at s (h_rt h') Hs G) as (A & B & C). exists e. hsimp.
  split; [exact A|]. split; [exact B|]. split; [exact C|]. auto.
Qed.
Lemma invoke_whole :
  (callable t s args -> exists h1 ps, called h h1 args ps /\
     forall ok h2, callee h1 = Ok ok h2 -> proper_callee h h2 (hp s) ok ->
       exists h', Invoke strict t callee (mkArgs args false) h = Ok ok h' /\ returned h h2 h' args ps ok) /\
  (~ callable t s args -> exists h', Invoke strict t callee (mkArgs args false) h = Ok false h' /\ refused h h').
Proof.
  destruct (paused t) eqn:PA.
  { split; [intros (_ & _ & X & _); congruence|]. intros _.
    destruct (invoke_error strict t callee (mkArgs args false) h Q (or_introl PA)) as (h' & e & E & R & _).
    exists h'. split; [exact E|]. destruct R as (R1 & R2 & R3 & R4). exists e. rewrite R1.
    split; [repeat split|]. split; [apply same_refl|]. auto. }
  rewrite (invoke_steps PA). destruct h0_facts as (J0 & Q0 & F0).
  pose proof (costs_nonneg _ _ FP) as CN.
  destruct (place_all_ok strict args h0 J0 Q0 F0) as [(h' & E & ST & LOW)|(h' & ps & E & G & EE & EO & SH & PI & LO & HC & LN)].
  - assert (LOW' : sp s < hp s + 4 + costs args + 64) by (unfold h0, entered in LOW; hsimp; wsimp; exact LOW).
    split; [intros (_ & _ & _ & _ & X); lia|]. intros _. destruct ST as (e & G & O & H & SE).
    destruct (refused_end h' e G O H SE) as (h'' & E2 & R). exists h''. split; [|exact R].
    unfold bind at 1. unfold bind at 1. rewrite E. exact E2.
  - assert (J2 : J (h_rt h')) by (eapply grown_J; eauto). assert (Q2 : quiet h') by (unfold quiet; now rewrite EE).
    assert (HH : hp (h_rt h') = hp s + 4 + costs args) by (rewrite HC; unfold h0, entered; hsimp; wsimp; lia).
    assert (SS : sp (h_rt h') = sp s) by (rewrite (g_sp _ _ G); reflexivity).
    assert (NP : 4 * (Z.of_nat (length ps) + 1) < two31 - 64) by (unfold two31; lia).
    destruct (rt_invoke strict t callee ps h' Q2 J2 NP PI) as [RDY NRDY].
    assert (RC : ready t (h_rt h') (Z.of_nat (length ps)) <-> callable t s args).
    { unfold ready, callable. rewrite LN, HH, SS. replace (hp s + 4 + costs args + 64 + 4 * (Z.of_nat (length args) + 1)) with (hp s + 4 + costs args + 64 + 4 * (Z.of_nat (length args) + 1)) by lia. tauto. }
    split.
    + intros C. destruct (RDY (proj2 RC C)) as (h1 & D & O1 & E1 & RUN). exists h1, ps.
      destruct D as (D1 & D2 & D3 & D4 & D5 & D6 & D7 & D8). rewrite LN in D2, D6, D8.
      destruct C as (_ & _ & _ & _ & FIT).
      assert (CO : called h h1 args ps).
      { unfold called. fold s. split; [eapply same_trans; [|exact D1]; destruct G as [[] _ _ _ _ _]; unfold h0, entered in *; hsimp; wsimp; split; assumption|].
        split; [lia|]. split; [rewrite D4, (g_frm _ _ G); reflexivity|]. split; [lia|]. split; [exact D6|]. split; [exact LN|].
        split; [intros i I; apply D7; exact I|].
        split; [rewrite D3; exact LO|]. split; [|split; [|split; [rewrite O1, EO; reflexivity|rewrite E1, EE; reflexivity]]].
        - change (h_obj h0) with (h_obj h) in SH. assert (HI : hp (h_rt h') <= sp (h_rt h1)) by lia.
          assert (D9 : forall x, x < sp (h_rt h1) -> mem (h_rt h1) x = mem (h_rt h') x) by (intros x X; apply D8; lia).
          clear -SH D9 FP LO HI. remember (hp (h_rt h0)) as lo. clear Heqlo. remember (hp (h_rt h')) as hi eqn:Hhi. clear Hhi.
          revert FP lo LO. induction SH as [|a p args ps S1 S2 IH]; intros FP lo LO; constructor.
          + inversion FP as [|? ? F1 F2]; subst. inversion LO; subst; [reflexivity|]. eapply shows_ext; [exact F1| |exact S1].
            intros x X. apply D9. match goal with H : laid_out _ _ _ _ |- _ => pose proof (laid_le _ _ _ _ _ H F2) end. lia.
          + inversion FP as [|? ? F1 F2]; subst. inversion LO; subst; eapply IH; eauto.
        - intros x X. unfold in_gap in X. rewrite D8 by lia. rewrite (g_mem _ _ G) by (unfold h0, entered; hsimp; wsimp; lia).
          unfold h0, entered; hsimp; wsimp. apply store32_out. destruct Hs as [_ []]. lia. }
      split; [exact CO|]. intros ok h2 CE PC. destruct (RUN ok h2 CE) as (h3 & E3 & K1 & K2 & K3 & K4 & K5).
      destruct PC as [PC1 PC2 PC3 PC4].
      assert (S3 : same_plugin s (h_rt h3)) by (eapply same_trans; eauto).
      assert (LV : leaveHeapScope (h_rt h3) = Ok tt (set_hp_scope (hp_scope s) (set_hp (hp s) (h_rt h3)))).
      { destruct K1 as (K11 & K12 & K13 & K14). assert (GS : hp_scope (h_rt h') = hp s) by (rewrite (g_sc _ _ G); reflexivity).
        rewrite (leave_ok (h_rt h3) (hp_scope s)).
        - rewrite K14, GS. reflexivity.
        - destruct Hs as [[] _], S3. split; lia.
        - destruct Hs as [_ []], S3. split; lia.
        - destruct Hs as [[] []]. lia.
        - rewrite K3, K14, GS. exact PC2.
        - rewrite K14, GS. destruct SC; lia. }
      assert (FIN : forall h4, h_rt h4 = h_rt h3 -> try_rt strict leaveHeapScope h4 = Ok (Some tt) (set_rt (set_hp_scope (hp_scope s) (set_hp (hp s) (h_rt h3))) h4)).
      { intros h4 E4. apply try_ok. rewrite E4. exact LV. }
      assert (RG : forall h4, h_rt h4 = h_rt h3 -> let s4 := set_hp_scope (hp_scope s) (set_hp (hp s) (h_rt h3)) in
         regs_eq s s4 /\ same_plugin s s4 /\ mem s4 = mem (h_rt h2)).
      { intros h4 E4. cbv zeta. unfold regs_eq. wsimp. destruct K1 as (K11 & K12 & K13 & K14). split; [|split].
        - split; [reflexivity|]. split; [congruence|]. split; [|reflexivity]. rewrite K13, (g_frm _ _ G). reflexivity.
        - destruct S3. split; assumption.
        - exact K3. }
      destruct ok.
      * assert (LEN : forall o, (length (h_obj h o) <= length (h_obj h3 o))%nat) by (intros o; rewrite K4; apply PC3).
        destruct (copy_back_ok args ps _ _ (h_obj h) h3 LO) as (h4 & E4 & C1 & C2 & C3).
        { unfold h0, entered. hsimp. wsimp. destruct Hs as [[] []]. lia. }
        { destruct Hs as [[] []], S3. lia. }
        { exact FP. } { exact LEN. }
        eexists. split.
        { unfold bind at 1. unfold bind at 1. rewrite E. cbv beta iota. unfold bind at 1. rewrite E3. cbn [negb].
          assert (Q3 : hasPendingException (h_env h3) = false) by (rewrite K5; exact (PC4 eq_refl)).
          unfold bind at 1, pending. rewrite Q3. unfold bind at 1. rewrite hassert_ok. unfold bind at 1. rewrite E4.
          unfold bind at 1. rewrite C2, Q3. unfold ret at 1. unfold bind. rewrite (FIN h4 C1). reflexivity. }
        destruct (RG h4 C1) as (R1 & R2 & R3). unfold returned. hsimp. fold s.
        split; [exact R1|]. split; [exact R2|]. split; [exact R3|]. split; [congruence|]. rewrite C3, K3, K4. reflexivity.
      * eexists. split.
        { unfold bind at 1. unfold bind at 1. rewrite E. cbv beta iota. unfold bind at 1. rewrite E3. cbn [negb].
          unfold ret at 1. unfold bind. rewrite (FIN h3 eq_refl). reflexivity. }
        destruct (RG h3 eq_refl) as (R1 & R2 & R3). unfold returned. hsimp. fold s.
        split; [exact R1|]. split; [exact R2|]. split; [exact R3|]. split; [exact K5|exact K4].
    + intros NC. destruct NRDY as (h3 & e & E3 & R1 & R2 & R3 & R4); [intros X; apply NC, RC, X|].
      destruct (refused_end h3 e) as (h'' & E4 & R).
      { rewrite R1. exact G. } { rewrite R2, EO. reflexivity. } { rewrite R3, EE. reflexivity. }
      { rewrite EE in R4. exact R4. }
      exists h''. split; [|exact R]. unfold bind at 1. unfold bind at 1. rewrite E. unfold bind at 1. rewrite E3. exact E4.
Qed.
End Whole.

(* ---- Pushing ---- *)
Lemma push_all args : forall c, (length (argv c) <= 32)%nat -> (error c = true -> length (argv c) = 32%nat) ->
  fold_left push args c = mkArgs (firstn 32 (argv c ++ args)) (error c || (32 <? length (argv c ++ args))%nat).
Proof.
  induction args as [|a args IH]; intros c L E; cbn [fold_left].
  - rewrite app_nil_r, firstn_all2 by assumption. destruct c as [av er]. cbn [argv error] in *.
    replace (32 <? length av)%nat with false by lia. now rewrite orb_false_r.
  - rewrite IH; unfold push, SP_MAX_EXEC_PARAMS; destruct (Nat.leb_spec 32 (length (argv c))) as [G|G]; cbn [argv error].
    + assert (LL : length (argv c) = 32%nat) by lia. rewrite !firstn_app, LL. cbn [Nat.sub].
      rewrite !app_length, LL. cbn [length]. replace (32 <? 32 + S (length args))%nat with true by lia.
      rewrite orb_true_r. reflexivity.
    + rewrite <- app_assoc. reflexivity.
    + exact L.
    + rewrite app_length. cbn [length]. lia.
    + intros _. lia.
    + intros X. specialize (E X). lia.
Qed.
Lemma pushes args : fold_left push args no_args = mkArgs (firstn 32 args) (32 <? length args)%nat.
Proof. exact (push_all args no_args ltac:(cbn; lia) ltac:(discriminate)). Qed.

(* ---- Witnesses ---- *)
Definition run_t : target := mkTarget false true false true.
Definition no_obj : nat -> list Z := fun _ => [].
Definition host_env : env := mkEnv [true] SP_ERROR_NONE [].
Definition at_host (s : rt) : hst := mkHst s host_env no_obj.
Definition nop : HM bool := fun h => Ok true h.

Definition tight : list op := [OScopeIn; OStack (-(sp small_rt - hp small_rt - 4 - 64))].
Lemma low_heap : exists s s' h', fresh s /\ perform_all tight s = Ok tt s' /\ layout s' /\ pointers_ok s' /\ scope_ok s' /\
  Invoke false run_t nop no_args (at_host s') = Ok false h' /\ hp (h_rt h') < hp s' /\ hp_scope (h_rt h') <> hp_scope s' /\
  Invoke true run_t nop no_args (at_host s') = UB UBAssert.
Proof.
  assert (V : match perform_all tight small_rt with
    | Ok _ s' => (mem_size s' =? mem_size small_rt) && (data_size s' =? data_size small_rt) && (stp s' =? stp small_rt) &&
       (data_size s' <=? hp s') && (hp s' <=? sp s') && (sp s' <=? stp s') && (0 <=? hp_scope s') && (hp_scope s' <? hp s') &&
       (match Invoke false run_t nop no_args (at_host s') with
        | Ok false h' => (hp (h_rt h') <? hp s') && negb (hp_scope (h_rt h') =? hp_scope s') | _ => false end) &&
       (match Invoke true run_t nop no_args (at_host s') with UB UBAssert => true | _ => false end)
    | _ => false end = true) by (vm_compute; reflexivity).
  exists small_rt. destruct (perform_all tight small_rt) as [[] s'| |] eqn:E; try discriminate V.
  rewrite !andb_true_iff in V. destruct V as [[[[[[[[[V1 V2] V3] V4] V5] V6] V7] V8] V9] V10].
  destruct (Invoke false run_t nop no_args (at_host s')) as [[|] h'| |] eqn:EI; try discriminate V9. exists s', h'.
  pose proof small_fresh as FR. split; [exact FR|]. split; [reflexivity|]. destruct FR as [[] _].
  split; [split; lia|]. split; [split; lia|]. split; [right; lia|]. split; [exact EI|].
  rewrite andb_true_iff in V9. destruct V9 as [V91 V92]. split; [lia|]. split; [lia|].
  destruct (Invoke true run_t nop no_args (at_host s')) as [| |[]]; try discriminate V10. reflexivity.
Qed.

(* A callee that stores to the heap below its own arguments. *)
Definition store_at (a v : Z) : HM bool := fun h =>
  match perform (OStore a v) (h_rt h) with Ok _ s => Ok true (set_rt s h) | Fail _ s => Ok false (set_rt s h) | UB u => UB u end.
Lemma forged_link : exists s a v h', fresh s /\ Invoke false run_t (store_at a v) no_args (at_host s) = Ok true h' /\
  hp_scope (h_rt h') <> hp_scope s.
Proof.
  assert (V : match Invoke false run_t (store_at (hp small_rt) 0) no_args (at_host small_rt) with
    | Ok true h' => negb (hp_scope (h_rt h') =? hp_scope small_rt) | _ => false end = true) by (vm_compute; reflexivity).
  exists small_rt, (hp small_rt), 0. destruct (Invoke false run_t (store_at (hp small_rt) 0) no_args (at_host small_rt)) as [[|] h'| |]; try discriminate V.
  exists h'. split; [exact small_fresh|]. split; [reflexivity|]. lia.
Qed.
Lemma int64_arg : exists s v, fresh s /\ callable run_t s [AInt64 v] /\
  forall strict callee, Invoke strict run_t callee (mkArgs [AInt64 v] false) (at_host s) = UB UBMem.
Proof.
  exists small_rt, 5. split; [exact small_fresh|]. split.
  - repeat split; try reflexivity. vm_compute. discriminate.
  - intros strict callee. destruct strict; vm_compute; reflexivity.
Qed.

(* ---- Examples ---- *)
Definition ex_obj : nat -> list Z := fun o => match o with
  | 0%nat => [1; 0; 0; 0] | 1%nat => [7; 0; 0; 0; 8; 0; 0; 0] | _ => [72; 105; 0; 0; 0; 0] end.
Definition ex_args : list arg := [ACell 42; ARef 0 true; AArray 1 2 true; AStr 2 6 true true false true; AStr 2 5 true false false false].
Definition ex_h : hst := mkHst small_rt host_env ex_obj.
Lemma ex_ok : quiet ex_h /\ layout (h_rt ex_h) /\ pointers_ok (h_rt ex_h) /\ scope_ok (h_rt ex_h) /\ Forall (proper (h_obj ex_h)) ex_args /\
  callable run_t (h_rt ex_h) ex_args.
Proof.
  pose proof small_fresh as (L & F1 & F2 & F3 & F4). assert (L' := L). destruct L'. split; [reflexivity|]. unfold ex_h; cbn [h_rt h_obj]. split; [exact L|].
  split; [split; lia|]. split; [left; exact F4|]. split.
  - unfold ex_args. repeat (apply Forall_cons); [| | | | |apply Forall_nil]; cbn [proper ex_obj length]; unfold small, is_i32, two31; try lia.
    + split; [lia|]. split; [lia|]. split; [|repeat split; intros; try discriminate; lia].
      intros _ _. split; [lia|]. exists [[72]; [105]]. split; [|reflexivity].
      apply Forall_cons; [apply u1; lia|]. apply Forall_cons; [apply u1; lia|apply Forall_nil].
    + split; [lia|]. split; [lia|]. split; [discriminate|]. split; [|split; discriminate]. intros _ _ _. exists [72; 105]. reflexivity.
  - repeat split; try reflexivity. vm_compute. discriminate.
Qed.
(* The callee adds one to the referenced cell and changes the string; the host sees it. *)
Definition ex_callee : HM bool := fun h =>
  let s := h_rt h in let p := load32 (mem s) (sp s + 8) in let q := load32 (mem s) (sp s + 16) in
  Ok true (set_rt (set_mem (store32 (store32 (mem s) p (load32 (mem s) p + 1)) q 0x4142) s) h).
Lemma ex_run : match Invoke true run_t ex_callee (mkArgs ex_args false) ex_h with
  | Ok true h' => (hp (h_rt h') =? hp small_rt) && (sp (h_rt h') =? sp small_rt) && (hd 0 (h_obj h' 0%nat) =? 2) && (hd 0 (h_obj h' 2%nat) =? 0x42)
  | _ => false end = true.
Proof. vm_compute. reflexivity. Qed.
Lemma too_many strict t callee args h : quiet h -> paused t = false -> (32 < length args)%nat ->
  exists h', Invoke strict t callee (fold_left push args no_args) h = Ok false h' /\ reports h h' PARAMS_MAX.
Proof.
  intros Q PA N. rewrite pushes. replace (32 <? length args)%nat with true by lia.
  destruct (invoke_error strict t callee (mkArgs (firstn 32 args) true) h Q (or_intror eq_refl)) as (h' & e & E & R & P).
  exists h'. rewrite (P PA) in R. auto.
Qed.
