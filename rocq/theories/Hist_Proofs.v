From Verif Require Import Base Base_Proofs Rt_Model Rt_Spec Rt_Proofs.
From Coq Require Import ZifyBool.
Ltac Zify.zify_post_hook ::= Z.div_mod_to_equations.

(* The invariant: what the open constructs say about pointers and bookkeeping cells. *)
Fixpoint coh (m : memory) (d top : Z) (g : list mark) (h s f sc : Z) : Prop :=
  match g with
  | [] => d <= h /\ h <= s /\ s <= top
  | Scope h0 old :: g' =>
      sc = h0 /\ h0 + 4 <= h /\ h <= s /\ load32 m h0 = old /\ coh m d top g' h0 s f old
  | Frame f0 c h0 old n :: g' =>
      f = f0 /\ h0 + 4 <= h /\ h <= s /\ s <= f0 /\ load32 m f0 = h0 /\ load32 m (f0 + 4) = c /\
      load32 m (f0 + 8) = n /\ load32 m h0 = old /\ 0 <= n /\ sc = old /\ is_i32 c /\
      coh m d top g' h0 (f0 + 12 + 4 * n) c old
  end.

Lemma coh_bounds m d top g : forall h s f sc, coh m d top g h s f sc -> d <= h /\ h <= s /\ s <= top.
Proof.
  induction g as [|[h0 old|f0 c h0 old n] g IH]; cbn [coh]; intros h s f sc H.
  - exact H.
  - destruct H as (_ & H1 & H2 & _ & H3). apply IH in H3. lia.
  - destruct H as (_ & H1 & H2 & H3 & _ & _ & _ & _ & H4 & _ & _ & H5). apply IH in H5. lia.
Qed.

Lemma coh_limits m d top g : forall h s f sc, coh m d top g h s f sc ->
  heap_limit d g <= h /\ s <= stack_limit top g /\ stack_limit top g <= top.
Proof.
  induction g as [|[h0 old|f0 c h0 old n] g IH]; cbn [coh heap_limit stack_limit]; intros h s f sc H.
  - lia.
  - destruct H as (_ & H1 & H2 & _ & H3). apply IH in H3. lia.
  - destruct H as (_ & H1 & H2 & H3 & _ & _ & _ & _ & H4 & _ & _ & H5).
    apply coh_bounds in H5. lia.
Qed.

Lemma coh_hp m d top g h h' s f sc : coh m d top g h s f sc -> heap_limit d g <= h' -> h' <= s ->
  coh m d top g h' s f sc.
Proof. destruct g as [|[]]; cbn [coh heap_limit]; intuition lia. Qed.

Lemma coh_sp m d top g : forall h s s' f sc, coh m d top g h s f sc -> h <= s' -> s' <= stack_limit top g ->
  coh m d top g h s' f sc.
Proof.
  induction g as [|[h0 old|f0 c h0 old n] g IH]; cbn [coh stack_limit]; intros h s s' f sc H H1 H2.
  - intuition lia.
  - destruct H as (A & B & C & D & E). repeat split; auto; try lia. eapply IH; eauto; lia.
  - intuition lia.
Qed.

Lemma coh_mem m m' d top g : forall h s f sc, coh m d top g h s f sc ->
  (forall a, In a (books g) -> load32 m' a = load32 m a) -> coh m' d top g h s f sc.
Proof.
  induction g as [|[h0 old|f0 c h0 old n] g IH]; cbn [coh]; intros h s f sc H HM; auto.
  - destruct H as (A & B & C & D & E). repeat split; auto.
    + rewrite HM; auto. now left.
    + eapply IH; eauto. intros. apply HM. right. assumption.
  - destruct H as (A & B & C & D & E & F & G & K & L & M & N & O).
    repeat split; auto; try (rewrite HM; auto; cbn; tauto); try apply N.
    eapply IH; eauto. intros. apply HM. cbn. tauto.
Qed.

(* Bookkeeping cells lie below the heap top or at/above the stack top. *)
Lemma coh_books m d top g : forall h s f sc, coh m d top g h s f sc ->
  forall a, In a (books g) -> a + 4 <= h \/ s <= a.
Proof.
  induction g as [|[h0 old|f0 c h0 old n] g IH]; cbn [coh]; intros h s f sc H a Ha.
  - destruct Ha.
  - destruct H as (A & B & C & D & E). destruct Ha as [<-|Ha]; [lia|].
    specialize (IH _ _ _ _ E a Ha). lia.
  - destruct H as (A & B & C & D & E & F & G & K & L & M & N & O).
    cbn [books flat_map book app] in Ha. destruct Ha as [<-|[<-|[<-|[<-|Ha]]]]; try lia.
    specialize (IH _ _ _ _ O a Ha). lia.
Qed.

Definition HI (s : rt) (g : list mark) : Prop :=
  layout s /\ is_i32 (frm s) /\ is_i32 (hp_scope s) /\
  coh (mem s) (data_size s) (stp s) g (hp s) (sp s) (frm s) (hp_scope s).

Lemma HI_ok s g : HI s g -> pointers_ok s.
Proof. intros (L & _ & _ & C). apply coh_bounds in C. constructor; lia. Qed.
Lemma HI_I s g : HI s g -> I s.
Proof.
  intros (L & F & S & C). split; auto. apply coh_bounds in C.
  constructor; auto; dlay; lia.
Qed.

Lemma fresh_HI s : fresh s -> HI s [].
Proof.
  intros (L & H1 & H2 & H3 & H4). unfold HI. cbn [coh]. rewrite H4.
  split; [exact L|]. dlay. repeat split; try bnd; lia.
Qed.

Lemma HI_store s g a v : HI s g -> Forall (fun c => a + 4 <= c \/ c + 4 <= a) (books g) ->
  HI (set_mem (store32 (mem s) a v) s) g.
Proof.
  intros (L & F & S & C) D. split; [destruct L; now constructor|]. repeat split; auto; try apply F; try apply S.
  wsimp. eapply coh_mem; [exact C|]. intros x Hx. apply load32_store32_other.
  rewrite Forall_forall in D. specialize (D x Hx). lia.
Qed.

Lemma HI_push s g v : HI s g -> sp s > hp s + 4 ->
  HI (set_mem (store32 (mem s) (sp s - 4) v) (set_sp (sp s - 4) s)) g.
Proof.
  intros (L & F & S & C) Hc. split; [destruct L; now constructor|]. repeat split; auto; try apply F; try apply S.
  wsimp. pose proof (coh_limits _ _ _ _ _ _ _ _ C) as HL.
  eapply coh_mem; [eapply coh_sp; [exact C|lia|lia]|].
  intros x Hx. apply load32_store32_other. pose proof (coh_books _ _ _ _ _ _ _ _ C x Hx). lia.
Qed.

(* Each disciplined operation keeps the invariant; failures keep the pointers in order. *)
Definition keeps (o : op) (s : rt) (g : list mark) : Prop :=
  match perform o s with
  | Ok _ s' => HI s' (after s g o)
  | Fail _ s' => pointers_ok s' /\ layout s'
  | UB _ => False
  end.

Lemma HI_lay s g : HI s g -> layout s. Proof. intros H; apply H. Qed.

Ltac same s g H := split; [now apply (HI_ok s g)|now apply (HI_lay s g)].

Lemma keeps_push v s g : HI s g -> keeps (OPush v) s g.
Proof.
  intros H. unfold keeps, perform. rewrite pushStack_eq by (eapply HI_I; eauto).
  destruct (sp s <=? hp s + 4) eqn:E; [same s g H|]. cbn [after]. apply HI_push; auto. lia.
Qed.
Lemma keeps_pop s g : HI s g -> disciplined s g OPop -> keeps OPop s g.
Proof.
  intros H D. cbn in D. unfold keeps, perform, bind. rewrite popStack_eq by (eapply HI_I; eauto).
  destruct (sp s >=? stp s) eqn:E; [same s g H|]. cbn [after]. unfold ret.
  destruct H as (L & F & S & C). split; [destruct L; now constructor|]. repeat split; auto; try apply F; try apply S.
  wsimp. eapply coh_sp; eauto. apply coh_bounds in C. lia.
Qed.
Lemma keeps_stack n s g : HI s g -> disciplined s g (OStack n) -> keeps (OStack n) s g.
Proof.
  intros H (D1 & D2 & D3). unfold keeps, perform. rewrite addStack_eq by (split; auto; eapply HI_I; eauto).
  assert (HH := H). destruct H as (L & F & S & C). pose proof (coh_bounds _ _ _ _ _ _ _ _ C) as B.
  destruct (n <? 0) eqn:E.
  - destruct (sp s + n <? hp s + 64) eqn:G; [same s g HH|]. cbn [after].
    split; [destruct L; now constructor|]. repeat split; auto; try apply F; try apply S.
    wsimp. eapply coh_sp; eauto. lia.
  - destruct (sp s + n >? stp s) eqn:G; [same s g HH|]. cbn [after].
    split; [destruct L; now constructor|]. repeat split; auto; try apply F; try apply S.
    wsimp. eapply coh_sp; eauto. lia.
Qed.
Lemma keeps_heap n s g : HI s g -> disciplined s g (OHeap n) -> keeps (OHeap n) s g.
Proof.
  intros H (D1 & D2 & D3). unfold keeps, perform, bind. rewrite heapAlloc_eq by (split; auto; eapply HI_I; eauto).
  assert (HH := H). destruct H as (L & F & S & C). pose proof (coh_bounds _ _ _ _ _ _ _ _ C) as B.
  destruct (n <? 0) eqn:E.
  - destruct (hp s + n <? data_size s) eqn:G; [same s g HH|]. cbn [after]. unfold ret.
    split; [destruct L; now constructor|]. repeat split; auto; try apply F; try apply S.
    wsimp. eapply coh_hp; eauto. lia.
  - destruct (hp s + n + 64 >? sp s) eqn:G; [same s g HH|]. cbn [after]. unfold ret.
    split; [destruct L; now constructor|]. repeat split; auto; try apply F; try apply S.
    wsimp. eapply coh_hp; eauto. lia.
Qed.
Lemma keeps_load a s g : HI s g -> keeps (OLoad a) s g.
Proof.
  intros H. unfold keeps, perform, bind. destruct (script_address_dec s a).
  - rewrite getCellValue_ok by (auto; apply H). exact H.
  - rewrite getCellValue_bad by auto. same s g H.
Qed.
Lemma keeps_store a v s g : HI s g -> disciplined s g (OStore a v) -> keeps (OStore a v) s g.
Proof.
  intros H D. unfold keeps, perform. destruct (script_address_dec s a).
  - rewrite setCellValue_ok by (auto; apply H). cbn [after]. now apply HI_store.
  - rewrite setCellValue_bad by auto. same s g H.
Qed.
Lemma keeps_trackin n s g : HI s g -> disciplined s g (OTrackIn n) -> keeps (OTrackIn n) s g.
Proof.
  intros H D. cbn in D. unfold keeps, perform, pushTracker, bind, get, assert_. rewrite D. cbn [negb].
  unfold ret at 1, throw_if. destruct (u32 n >? 2147483647); [same s g H|]. unfold ret at 1.
  assert (HH := H). destruct H as (L & F & S & C). pose proof (coh_bounds _ _ _ _ _ _ _ _ C) as B.
  rewrite (wrap32_id (sp s - hp s)) by (dlay; bnd). unfold STACK_MARGIN.
  destruct (sp s - hp s <? 64) eqn:G; [same s g HH|]. unfold ret at 1.
  unfold wr32. rewrite in_mem_true by (dlay; lia). unfold put. cbn [after].
  split; [destruct L; now constructor|]. repeat split; auto; try apply F; try apply S.
  wsimp. rewrite (wrap32_id (hp s + 4)) by (dlay; bnd).
  pose proof (coh_limits _ _ _ _ _ _ _ _ C) as HL.
  eapply coh_mem; [eapply coh_hp; [exact C|lia|lia]|].
  intros x Hx. apply load32_store32_other. pose proof (coh_books _ _ _ _ _ _ _ _ C x Hx). lia.
Qed.
Lemma HI_set_hp s g h : HI s g -> heap_limit (data_size s) g <= h -> h <= sp s -> HI (set_hp h s) g.
Proof.
  intros (L & F & S & C) H1 H2. split; [destruct L; now constructor|]. repeat split; auto; try apply F; try apply S.
  wsimp. eapply coh_hp; eauto.
Qed.
Lemma keeps_trackout s g : HI s g -> disciplined s g OTrackOut -> keeps OTrackOut s g.
Proof.
  intros H [D1 D2]. unfold keeps, perform, popTrackerAndSetHeap, bind, get, assert_, put.
  assert (HH := H). destruct H as (L & F & S & C). pose proof (coh_bounds _ _ _ _ _ _ _ _ C) as B.
  rewrite (wrap32_id (data_size s)) by (dlay; bnd).
  replace ((sp s >=? hp s) && (hp s >=? data_size s)) with true by lia. unfold ret at 1, throw_if.
  rewrite (wrap32_id (hp s - data_size s)) by (dlay; bnd).
  destruct (hp s - data_size s <? 4) eqn:E; [same s g HH|]. unfold ret at 1.
  rewrite (wrap32_id (hp s - 4)) by (dlay; bnd). wsimp. unfold rd32.
  rewrite in_mem_true by (wsimp; dlay; lia). wsimp.
  rewrite (wrap32_id (hp s - 4 - data_size s)) by (dlay; bnd).
  set (amt := load32 (mem s) (hp s - 4)) in *.
  destruct ((amt <? 0) || (hp s - 4 - data_size s <? amt)) eqn:G.
  - assert (H4 : HI (set_hp (hp s - 4) s) g) by (apply HI_set_hp; auto; lia).
    split; [now apply (HI_ok _ g)|apply (HI_lay _ g H4)].
  - unfold ret. cbn [after]. rewrite wrap32_id by (dlay; bnd). wsimp.
    apply (HI_set_hp s g (hp s - 4 - amt)); auto; lia.
Qed.

Lemma heapAlloc4_HI s g : HI s g ->
  heapAlloc 4 s = if hp s + 4 + 64 >? sp s then Fail HEAPLOW s else Ok (hp s) (set_hp (hp s + 4) s).
Proof. intros H. rewrite heapAlloc_eq by (eauto using HI_I, amount_ok_4). reflexivity. Qed.

Lemma keeps_scopein s g : HI s g -> keeps OScopeIn s g.
Proof.
  intros H. unfold keeps, perform, enterHeapScope, bind, get, put.
  rewrite (heapAlloc4_HI s g H). destruct (hp s + 4 + 64 >? sp s) eqn:E; [same s g H|].
  assert (HH := H). destruct H as (L & F & S & C). pose proof (coh_bounds _ _ _ _ _ _ _ _ C) as B.
  rewrite throwIfBadAddress_ok by (unfold script_address, in_gap; wsimp; dlay; lia).
  unfold wr32. rewrite in_mem_true by (wsimp; dlay; lia). cbn [after].
  split; [destruct L; now constructor|]. wsimp. repeat split; auto; try apply F; try (dlay; bnd).
  - rewrite load32_store32_same. apply wrap32_id, S.
  - eapply coh_mem; [exact C|]. intros x Hx. apply load32_store32_other.
    pose proof (coh_books _ _ _ _ _ _ _ _ C x Hx). lia.
Qed.

Lemma keeps_scopeout s g : HI s g -> disciplined s g OScopeOut -> keeps OScopeOut s g.
Proof.
  intros H (h & old & g' & ->). unfold keeps, perform, leaveHeapScope, bind, get, put.
  destruct H as (L & F & S & C). cbn [coh] in C. destruct C as (C1 & C2 & C3 & C4 & C5).
  pose proof (coh_bounds _ _ _ _ _ _ _ _ C5) as B.
  rewrite throwIfBadAddress_ok by (rewrite C1; unfold script_address, in_gap; wsimp; dlay; lia).
  unfold rd32. rewrite in_mem_true by (rewrite C1; dlay; lia). rewrite C1, C4. wsimp.
  assert (HI' : HI (set_hp_scope old (set_hp h s)) g').
  { split; [destruct L; now constructor|]. wsimp. repeat split; auto; try apply F;
    rewrite <- C4; apply load32_range. }
  destruct (old =? -1) eqn:E; [exact HI'|].
  unfold throwIfBadAddress. destruct (bad_address _ old); [same (set_hp_scope old (set_hp h s)) g' HI'|exact HI'].
Qed.

Lemma store_load_chain m a v : is_i32 v -> load32 (store32 m a v) a = v.
Proof. intros. rewrite load32_store32_same. now apply wrap32_id. Qed.

Lemma keeps_enter s g : HI s g -> disciplined s g OEnter -> keeps OEnter s g.
Proof.
  intros H [D1 D2]. unfold keeps, perform, pushAmxFrame. unfold bind at 1, get at 1. unfold bind at 1.
  rewrite pushStack_eq by (eapply HI_I; eauto).
  destruct (sp s <=? hp s + 4) eqn:E; [same s g H|].
  set (s1 := set_mem _ _). assert (H1 : HI s1 g) by (apply HI_push; auto; lia).
  unfold bind at 1. rewrite (heapAlloc4_HI s1 g H1).
  destruct (hp s1 + 4 + 64 >? sp s1) eqn:E1; [same s1 g H1|].
  unfold s1 in *; wsimp; clear s1.
  assert (HH := H). destruct H as (L & F & S & C). pose proof (coh_bounds _ _ _ _ _ _ _ _ C) as B.
  unfold bind at 1. rewrite throwIfBadAddress_ok by (unfold script_address, in_gap; wsimp; dlay; lia).
  unfold bind at 1, get at 1, bind at 1. wsimp. unfold wr32 at 1. rewrite in_mem_true by (wsimp; dlay; lia).
  wsimp.
  set (m1 := store32 (store32 (mem s) (sp s - 4) (frm s)) (hp s) (hp_scope s)).
  set (s2 := set_mem _ _).
  assert (H2 : HI s2 g).
  { unfold s2. split; [destruct L; now constructor|]. wsimp. repeat split; auto; try apply F; try apply S.
    pose proof (coh_limits _ _ _ _ _ _ _ _ C) as HL.
    eapply coh_mem; [eapply coh_hp; [eapply coh_sp; [exact C|lia|lia]|lia|lia]|].
    intros x Hx. pose proof (coh_books _ _ _ _ _ _ _ _ C x Hx). unfold m1.
    rewrite !load32_store32_other by lia. reflexivity. }
  unfold bind at 1. rewrite pushStack_eq by (eapply HI_I; exact H2).
  destruct (sp s2 <=? hp s2 + 4) eqn:E2; [same s2 g H2|].
  unfold bind, get, put. cbn [after]. unfold s2 in *; wsimp; clear s2.
  destruct H2 as (L2 & _ & _ & C2). wsimp.
  split; [destruct L; now constructor|]. wsimp.
  replace (sp s - 4 - 4) with (sp s - 8) in * by lia.
  repeat split; try (dlay; bnd); try apply S; try apply F; try lia.
  - rewrite store_load_chain; auto. dlay; bnd.
  - replace (sp s - 8 + 4) with (sp s - 4) by lia. unfold m1.
    rewrite !load32_store32_other by lia. apply store_load_chain. exact F.
  - replace (sp s - 8 + 8) with (sp s) by lia. unfold m1.
    rewrite !load32_store32_other by lia. reflexivity.
  - rewrite load32_store32_other by lia. unfold m1. apply store_load_chain. exact S.
  - replace (sp s - 8 + 12 + 4 * load32 (mem s) (sp s)) with (sp s + 4 + 4 * load32 (mem s) (sp s)) by lia.
    eapply coh_mem; [eapply coh_sp; [exact C|lia|lia]|].
    intros x Hx. pose proof (coh_books _ _ _ _ _ _ _ _ C x Hx). unfold m1.
    rewrite !load32_store32_other by lia. reflexivity.
Qed.

(* Dropping the scopes opened inside the innermost frame. *)
Lemma coh_drop m d top g : forall h s f sc, coh m d top g h s f sc ->
  exists h' sc', coh m d top (drop_scopes g) h' s f sc' /\ h' <= h.
Proof.
  induction g as [|[h0 old|f0 c h0 old n] g IH]; cbn [drop_scopes]; intros h s f sc H.
  - exists h, sc. split; [exact H|lia].
  - cbn [coh] in H. destruct H as (A & B & C & D & E). apply IH in E. destruct E as (h' & sc' & E & E').
    exists h', sc'. split; [exact E|lia].
  - exists h, sc. split; [exact H|lia].
Qed.

Lemma bind_ok S A B (m : S -> res S A) (k : A -> S -> res S B) s a s' :
  m s = Ok a s' -> bind m k s = k a s'.
Proof. intros H. unfold bind. now rewrite H. Qed.
Lemma popStack_at s : layout s -> 0 <= sp s < stp s ->
  popStack s = Ok (load32 (mem s) (sp s)) (set_sp (sp s + 4) s).
Proof.
  intros L H. unfold popStack.
  erewrite bind_ok by reflexivity. replace (sp s >=? stp s) with false by lia.
  erewrite bind_ok by reflexivity.
  erewrite bind_ok by (unfold rd32; rewrite in_mem_true by (dlay; lia); reflexivity).
  erewrite bind_ok by reflexivity. unfold ret. now rewrite wrap32_id by (dlay; bnd).
Qed.

(* Leaving a frame whose bookkeeping is intact restores the caller: C03. *)
Lemma popAmxFrame_intact s f c h old n :
  layout s -> frm s = f -> 0 <= data_size s <= h -> h + 4 <= hp s -> h + 4 <= f ->
  f + 12 + 4 * n <= stp s -> 0 <= n -> is_i32 old ->
  load32 (mem s) f = h -> load32 (mem s) (f + 4) = c -> load32 (mem s) (f + 8) = n ->
  load32 (mem s) h = old ->
  popAmxFrame s = Ok tt (set_sp (f + 12 + 4 * n) (set_frm c (set_hp h (set_hp_scope old s)))).
Proof.
  intros L Hf Hd Hh Hsf Hn Hn0 Ho E1 E2 E3 E4.
  assert (Lm : mem_size s + 128 <= two31) by apply L. assert (Ls : stp s = mem_size s - 4) by apply L.
  assert (Lx : forall x y z w, layout (set_sp x (set_hp y (set_hp_scope z (set_frm w s)))))
    by (intros; destruct L; now constructor).
  unfold popAmxFrame. erewrite bind_ok by reflexivity. erewrite bind_ok by reflexivity. rewrite Hf.
  erewrite bind_ok by (apply popStack_at; [destruct L; now constructor|wsimp; lia]). wsimp. rewrite E1.
  erewrite bind_ok by (apply throwIfBadAddress_ok; unfold script_address, in_gap; wsimp; lia).
  erewrite bind_ok by (unfold rd32; rewrite in_mem_true by (wsimp; lia); reflexivity). wsimp. rewrite E4.
  do 3 (erewrite bind_ok by reflexivity). wsimp.
  rewrite u32_id by (unfold is_u32, two32, two31 in *; lia).
  replace ((h <? data_size s) || (h >? f + 4)) with false by lia.
  erewrite bind_ok by reflexivity.
  erewrite bind_ok by (apply popStack_at; [destruct L; now constructor|wsimp; lia]). wsimp. rewrite E2.
  erewrite bind_ok by reflexivity. replace (f + 4 + 4) with (f + 8) by lia.
  erewrite bind_ok by (apply popStack_at; [destruct L; now constructor|wsimp; lia]). wsimp. rewrite E3.
  erewrite bind_ok by reflexivity. wsimp.
  replace (f + 8 + 4 + n * 4) with (f + 12 + 4 * n) by lia.
  rewrite (wrap32_id (f + 12 + 4 * n)) by bnd.
  replace ((n <? 0) || (f + 12 + 4 * n >? stp s)) with false by lia.
  erewrite bind_ok by reflexivity. destruct s; reflexivity.
Qed.

Lemma keeps_leave s g : HI s g -> disciplined s g OLeave -> keeps OLeave s g.
Proof.
  intros H (f & c & h & old & n & g' & E). unfold keeps, perform. cbn [after]. rewrite E. cbn [tl].
  destruct H as (L & F & S & C). apply coh_drop in C. destruct C as (h' & sc' & C & Hle). rewrite E in C.
  cbn [coh] in C. destruct C as (C1 & C2 & C3 & C4 & C5 & C6 & C7 & C8 & C9 & C10 & C11 & C12).
  pose proof (coh_bounds _ _ _ _ _ _ _ _ C12) as B.
  rewrite (popAmxFrame_intact s f c h old n) by
    (auto; try lia; try (rewrite <- C8; apply load32_range); dlay; lia).
  split; [destruct L; now constructor|]. wsimp. repeat split; auto; try apply C11;
    try (rewrite <- C8; apply load32_range).
Qed.

Lemma keeps_all o s g : HI s g -> disciplined s g o -> keeps o s g.
Proof.
  destruct o; intros; auto using keeps_push, keeps_pop, keeps_stack, keeps_heap, keeps_enter,
    keeps_leave, keeps_scopein, keeps_scopeout, keeps_trackin, keeps_trackout, keeps_store, keeps_load.
Qed.

Lemma history_HI s g : history s g -> HI s g.
Proof.
  induction 1 as [s Hf|s g o s' _ IH D E]; [now apply fresh_HI|].
  pose proof (keeps_all o s g IH D) as K. unfold keeps in K. now rewrite E in K.
Qed.

Lemma history_step s g o : history s g -> disciplined s g o ->
  match perform o s with
  | Ok _ s' => pointers_ok s'
  | Fail _ s' => pointers_ok s'
  | UB _ => False
  end.
Proof.
  intros H D. pose proof (keeps_all o s g (history_HI s g H) D) as K. unfold keeps in K.
  destruct (perform o s) as [[] s'|e s'|u]; [now apply HI_ok in K|apply K|exact K].
Qed.

Lemma simple_fail s g o e s' : history s g -> disciplined s g o -> simple_op o ->
  perform o s = Fail e s' -> s' = s.
Proof.
  intros H D S E. apply history_HI in H. assert (HI0 := HI_I _ _ H).
  destruct o; try contradiction; cbn [perform] in E.
  - rewrite pushStack_eq in E by auto. destruct (sp s <=? hp s + 4); congruence.
  - unfold bind in E. rewrite popStack_eq in E by auto. destruct (sp s >=? stp s); unfold ret in E; congruence.
  - destruct D as (D1 & D2 & D3). rewrite addStack_eq in E by (auto; split; auto).
    destruct (n <? 0); [destruct (sp s + n <? hp s + 64)|destruct (sp s + n >? stp s)]; congruence.
  - destruct D as (D1 & D2 & D3). unfold bind in E. rewrite heapAlloc_eq in E by (auto; split; auto).
    destruct (n <? 0); [destruct (hp s + n <? data_size s)|destruct (hp s + n + 64 >? sp s)];
      unfold ret in E; congruence.
  - unfold enterHeapScope, bind, get, put in E. rewrite (heapAlloc4_HI s g H) in E.
    destruct (hp s + 4 + 64 >? sp s) eqn:G; [congruence|].
    destruct H as (L & F & Sc & C). pose proof (coh_bounds _ _ _ _ _ _ _ _ C) as B.
    rewrite throwIfBadAddress_ok in E by (unfold script_address, in_gap; wsimp; dlay; lia).
    unfold wr32 in E. rewrite in_mem_true in E by (wsimp; dlay; lia). discriminate.
  - cbn in D. unfold pushTracker, bind, get, assert_ in E. rewrite D in E. cbn [negb] in E. unfold ret at 1, throw_if in E.
    destruct (u32 n >? 2147483647); [unfold fail in E; cbn in E; congruence|]. unfold ret at 1 in E.
    destruct (wrap32 (sp s - hp s) <? STACK_MARGIN); [unfold fail in E; cbn in E; congruence|]. unfold ret at 1 in E.
    unfold wr32 in E. destruct (in_mem s (hp s) 4); cbn in E; discriminate.
  - destruct (script_address_dec s a).
    + rewrite setCellValue_ok in E by (auto; apply H). discriminate.
    + rewrite setCellValue_bad in E by auto. congruence.
  - unfold bind in E. destruct (script_address_dec s a).
    + rewrite getCellValue_ok in E by (auto; apply H). discriminate.
    + rewrite getCellValue_bad in E by auto. cbn in E. congruence.
Qed.

Lemma push_pop s v s1 : layout s -> pointers_inside s -> is_i32 v -> pushStack v s = Ok tt s1 ->
  exists s2, popStack s1 = Ok v s2 /\ regs_eq s s2 /\ unchanged_outside s s2 (sp s - 4) 4 /\ same_plugin s s2.
Proof.
  intros L P Hv H. rewrite pushStack_eq in H by (split; auto).
  destruct (sp s <=? hp s + 4) eqn:E; [discriminate|]. injection H as <-.
  assert (sp s - 4 < stp s) by (dlay; lia).
  eexists. split.
  - rewrite popStack_at; [|destruct L; now constructor|wsimp; dlay; lia]. wsimp.
    rewrite load32_store32_same, wrap32_id by assumption. reflexivity.
  - unfold regs_eq, unchanged_outside. wsimp. repeat split; try lia.
    intros x Hx. apply store32_out. lia.
Qed.

Lemma load32_kept s s' a n c : bytes_kept s s' a n -> a <= c -> c + 4 <= a + n ->
  load32 (mem s') c = load32 (mem s) c.
Proof. intros H H1 H2. apply load32_ext. intros i Hi. apply H. lia. Qed.

Lemma enter_leave s s1 s2 n :
  layout s -> pointers_ok s -> is_i32 (frm s) -> is_i32 (hp_scope s) ->
  n = load32 (mem s) (sp s) -> 0 <= n -> sp s + 4 + 4 * n <= stp s ->
  pushAmxFrame s = Ok tt s1 ->
  same_plugin s1 s2 -> frm s2 = frm s1 -> hp s + 4 <= hp s2 ->
  bytes_kept s1 s2 (frm s1) 12 -> bytes_kept s1 s2 (hp s) 4 ->
  exists s3, popAmxFrame s2 = Ok tt s3 /\
    frm s3 = frm s /\ hp s3 = hp s /\ hp_scope s3 = hp_scope s /\ sp s3 = sp s + 4 + 4 * n /\
    mem s3 = mem s2.
Proof.
  intros L P F S Hn H1 H2 E SP Hf Hh K1 K2.
  assert (H : HI s []). { destruct P. split; auto. split; auto. split; auto. cbn. auto. }
  pose proof (keeps_enter s [] H) as K. unfold keeps, perform in K. rewrite E in K.
  specialize (K ltac:(cbn; subst; auto)). cbn [after] in K. destruct K as (L1 & F1 & S1 & C).
  cbn [coh] in C. destruct C as (C1 & C2 & C3 & C4 & C5 & C6 & C7 & C8 & C9 & C10 & C11 & C12 & C13 & C14).
  destruct SP. rewrite C1 in *.
  assert (Hd : data_size s1 = data_size s /\ stp s1 = stp s).
  { pose proof (safe_pushAmxFrame s (HI_I _ _ H)) as Q. unfold wp in Q. rewrite E in Q.
    split; [apply (R_data _ _ Q)|apply (R_stp _ _ Q)]. }
  destruct Hd as [Hd Hst].
  eexists. split.
  - apply (popAmxFrame_intact s2 (sp s - 8) (frm s) (hp s) (hp_scope s) n); try lia; auto.
    + destruct L1; constructor; try congruence; lia.
    + destruct P, L. lia.
    + rewrite (load32_kept s1 s2 (sp s - 8) 12) by (auto; lia). assumption.
    + rewrite (load32_kept s1 s2 (sp s - 8) 12) by (auto; lia). assumption.
    + rewrite (load32_kept s1 s2 (sp s - 8) 12) by (auto; lia). congruence.
    + rewrite (load32_kept s1 s2 (hp s) 4) by (auto; lia). assumption.
  - wsimp. repeat split; try reflexivity. lia.
Qed.

Lemma history_leave s g f c h old n g' : history s g -> drop_scopes g = Frame f c h old n :: g' ->
  exists s', popAmxFrame s = Ok tt s' /\ frm s' = c /\ hp s' = h /\ hp_scope s' = old /\
    sp s' = f + 12 + 4 * n /\ mem s' = mem s.
Proof.
  intros H E. apply history_HI in H. destruct H as (L & F & S & C). apply coh_drop in C.
  destruct C as (h' & sc' & C & Hle). rewrite E in C.
  cbn [coh] in C. destruct C as (C1 & C2 & C3 & C4 & C5 & C6 & C7 & C8 & C9 & C10 & C11 & C12).
  pose proof (coh_bounds _ _ _ _ _ _ _ _ C12) as B.
  eexists. split.
  - apply (popAmxFrame_intact s f c h old n); auto; try lia; try (rewrite <- C8; apply load32_range); dlay; lia.
  - wsimp. repeat split; reflexivity.
Qed.

(* A concrete plugin: 16 bytes of data, default heap. *)
Definition demo_rt : rt := make_rt [1;2;3;4;5;6;7;8;9;10;11;12;13;14;15;16] 0 true true.
Lemma demo_fresh : fresh demo_rt.
Proof. repeat split; cbn; unfold two31; lia. Qed.

Definition st (r : res rt unit) (d : rt) : rt := match r with Ok _ s => s | _ => d end.
Definition is_ok (r : res rt unit) : bool := match r with Ok _ _ => true | _ => false end.
Lemma h_next s g o : history s g -> disciplined s g o -> is_ok (perform o s) = true ->
  history (st (perform o s) s) (after s g o).
Proof.
  intros H D E. apply h_step; auto. destruct (perform o s) as [[] s'| |]; try discriminate. reflexivity.
Qed.
(* A call with two arguments that opens a scope, allocates and stores. *)
Lemma history_example : exists s g, history s g /\ length g = 2%nat /\ disciplined s g OLeave /\
  is_ok (perform OLeave s) = true.
Proof.
  do 2 eexists. split.
  - eapply (h_next _ _ (OStore 30 77)).
    + eapply (h_next _ _ (OHeap 40)).
      * eapply (h_next _ _ OScopeIn).
        -- eapply (h_next _ _ OEnter).
           ++ eapply (h_next _ _ (OPush 2)).
              ** eapply (h_next _ _ (OPush 11)).
                 --- eapply (h_next _ _ (OPush 12)); [exact (h_start _ demo_fresh)|exact Logic.I|vm_compute; reflexivity].
                 --- exact Logic.I.
                 --- vm_compute; reflexivity.
              ** exact Logic.I.
              ** vm_compute; reflexivity.
           ++ vm_compute. split; discriminate.
           ++ vm_compute; reflexivity.
        -- exact Logic.I.
        -- vm_compute; reflexivity.
      * vm_compute. repeat split; discriminate.
      * vm_compute; reflexivity.
    + cbn [disciplined]. match goal with |- Forall _ ?l => let l' := eval vm_compute in l in change l with l' end.
      repeat constructor; lia.
    + vm_compute; reflexivity.
  - split; [reflexivity|]. split; [|vm_compute; reflexivity].
    vm_compute. do 6 eexists. reflexivity.
Qed.

(* Forged values break the ordering. *)
Lemma forged_size : exists s s' n, fresh s /\ 0 <= n < two31 /\ perform (OHeap n) s = Ok tt s' /\ ~ pointers_ok s'.
Proof.
  exists demo_rt, (set_hp (16 + 2147483600) demo_rt), 2147483600.
  split; [apply demo_fresh|]. split; [unfold two31; lia|]. split; [vm_compute; reflexivity|].
  intros []. cbn in *. lia.
Qed.
Definition forge_scope : list op := [OStore 0 (-1); OScopeIn; OScopeIn; OStore 20 0; OScopeOut; OScopeOut].
Lemma forged_scope : exists s s' os, fresh s /\ perform_all os s = Ok tt s' /\ hp s' < data_size s'.
Proof.
  destruct (perform_all forge_scope demo_rt) as [[] s'| |] eqn:E; [|vm_compute in E; discriminate..].
  exists demo_rt, s', forge_scope. split; [apply demo_fresh|]. split; [exact E|].
  assert (hp s' = match perform_all forge_scope demo_rt with Ok _ s' => hp s' | _ => 99 end) by now rewrite E.
  assert (data_size s' = match perform_all forge_scope demo_rt with Ok _ s' => data_size s' | _ => 99 end) by now rewrite E.
  rewrite H, H0. vm_compute. reflexivity.
Qed.

(* Exact outcomes of the basic operations. *)
Lemma outcome s g o r : history s g -> disciplined s g o -> (forall n, o = OTrackIn n -> is_i32 n) ->
  expected s o = Some r -> perform o s = r.
Proof.
  intros H D Hn E. apply history_HI in H. assert (HI0 := HI_I _ _ H). assert (L := HI_lay _ _ H).
  assert (PO := HI_ok _ _ H).
  destruct o; cbn [expected] in E; try discriminate E; injection E as <-; cbn [perform].
  - rewrite pushStack_eq by assumption. replace (sp s - 4 <=? hp s) with (sp s <=? hp s + 4) by lia. reflexivity.
  - unfold bind. rewrite popStack_eq by assumption. replace (stp s <=? sp s) with (sp s >=? stp s) by lia.
    destruct (sp s >=? stp s); reflexivity.
  - cbn in D. rewrite addStack_eq by (unfold amount_ok; tauto). destruct (n <? 0) eqn:E1.
    + replace (0 <=? n) with false by lia. cbn [andb]. destruct (sp s + n <? hp s + 64); reflexivity.
    + replace (0 <=? n) with true by lia. cbn [andb]. replace (stp s <? sp s + n) with (sp s + n >? stp s) by lia.
      destruct (sp s + n >? stp s); reflexivity.
  - cbn in D. unfold bind. rewrite heapAlloc_eq by (unfold amount_ok; tauto). destruct (n <? 0) eqn:E1.
    + replace (0 <=? n) with false by lia. cbn [andb]. destruct (hp s + n <? data_size s); reflexivity.
    + replace (0 <=? n) with true by lia. cbn [andb]. replace (sp s <? hp s + n + 64) with (hp s + n + 64 >? sp s) by lia.
      destruct (hp s + n + 64 >? sp s); reflexivity.
  - unfold enterHeapScope, bind, get, put. rewrite (heapAlloc4_HI s g H).
    replace (sp s <? hp s + 4 + 64) with (hp s + 4 + 64 >? sp s) by lia.
    destruct (hp s + 4 + 64 >? sp s) eqn:G; [reflexivity|].
    rewrite throwIfBadAddress_ok by (unfold script_address, in_gap; wsimp; dlay; lia).
    unfold wr32. rewrite in_mem_true by (wsimp; dlay; lia). reflexivity.
  - cbn in D. specialize (Hn n eq_refl). unfold pushTracker, bind, get, assert_. rewrite D. cbn [negb]. unfold ret at 1, throw_if.
    assert (U : (u32 n >? 2147483647) = (n <? 0)) by (unfold u32, is_i32, two31, two32 in *; lia). rewrite U.
    destruct (n <? 0) eqn:E1; [reflexivity|]. unfold ret at 1. cbn [orb].
    rewrite wrap32_id by (dlay; bnd). unfold STACK_MARGIN. destruct (sp s - hp s <? 64) eqn:E2; [reflexivity|].
    unfold ret at 1, wr32. rewrite in_mem_true by (dlay; lia). unfold put. wsimp.
    rewrite (wrap32_id n) by assumption. rewrite wrap32_id by (dlay; bnd). destruct s; reflexivity.
Qed.

Lemma heap_block s n : layout s -> pointers_ok s -> is_i32 (frm s) -> is_i32 (hp_scope s) -> amount_ok s n -> 0 <= n ->
  hp s + n + 64 <= sp s -> heapAlloc n s = Ok (hp s) (set_hp (hp s + n) s).
Proof.
  intros L P F S A H1 H2. rewrite heapAlloc_eq by (auto; split; auto; constructor; auto; dlay; lia).
  replace (n <? 0) with false by lia. replace (hp s + n + 64 >? sp s) with false by lia. reflexivity.
Qed.

(* The scope chain ends in -1. *)
Fixpoint base_sc (g : list mark) (sc : Z) : Z :=
  match g with [] => sc | Scope _ old :: g' | Frame _ _ _ old _ :: g' => base_sc g' old end.
Lemma base_drop g f c h old n g' sc : drop_scopes g = Frame f c h old n :: g' -> base_sc g sc = base_sc g' old.
Proof.
  revert sc. induction g as [|[h0 o0|f0 c0 h0 o0 n0] g IH]; intros sc E; cbn [drop_scopes base_sc] in *; [discriminate|eauto|congruence].
Qed.
Lemma base_inv s g : history s g -> base_sc g (hp_scope s) = -1.
Proof.
  induction 1 as [s Hf|s g o s' H IH D E]; [apply Hf|].
  assert (K := H). apply history_HI in K. assert (HI0 := HI_I _ _ K). assert (L := HI_lay _ _ K).
  destruct (expected s o) as [r|] eqn:X.
  - destruct o; cbn [expected] in X; try discriminate X; try (injection X as <-).
    + rewrite (outcome s g (OPush v) _ H D ltac:(discriminate) eq_refl) in E.
      destruct (sp s - 4 <=? hp s); [discriminate|]. injection E as <-. exact IH.
    + rewrite (outcome s g OPop _ H D ltac:(discriminate) eq_refl) in E.
      destruct (stp s <=? sp s); [discriminate|]. injection E as <-. exact IH.
    + rewrite (outcome s g (OStack n) _ H D ltac:(discriminate) eq_refl) in E.
      destruct (_ && _); [discriminate|]. destruct (_ && _); [discriminate|]. injection E as <-. exact IH.
    + rewrite (outcome s g (OHeap n) _ H D ltac:(discriminate) eq_refl) in E.
      destruct (_ && _); [discriminate|]. destruct (_ && _); [discriminate|]. injection E as <-. exact IH.
    + cbn [after base_sc]. exact IH.
    + cbn [perform after] in *. unfold pushTracker, bind, get, assert_, throw_if, ret, wr32, put in E.
      destruct (negb _); [|discriminate]. destruct (_ >? _); [discriminate|]. destruct (_ <? _); [discriminate|].
      destruct (in_mem _ _ _); [|discriminate]. injection E as <-. exact IH.
  - destruct o; cbn [expected] in X; try discriminate X; cbn [after base_sc].
    + exact IH.
    + destruct D as (f & c & h & old & n & g' & D). rewrite D. cbn [tl].
      destruct (history_leave s g f c h old n g' H D) as (s2 & E2 & _ & _ & E3 & _). cbn [perform] in E.
      rewrite E2 in E. injection E as <-. rewrite E3. now rewrite <- (base_drop g f c h old n g' (hp_scope s) D).
    + destruct D as (h & old & g' & ->). cbn [tl]. cbn [base_sc] in IH.
      destruct K as (_ & _ & _ & C). cbn [coh] in C. destruct C as (C1 & C2 & C3 & C4 & C5).
      pose proof (coh_bounds _ _ _ _ _ _ _ _ C5) as B.
      cbn [perform] in E. unfold leaveHeapScope, bind, get, put in E.
      rewrite throwIfBadAddress_ok in E by (rewrite C1; unfold script_address, in_gap; wsimp; dlay; lia).
      unfold rd32 in E. rewrite in_mem_true in E by (rewrite C1; dlay; lia). rewrite C1, C4 in E. wsimp.
      destruct (old =? -1); [injection E as <-; exact IH|]. unfold throwIfBadAddress in E.
      destruct (bad_address _ old); [discriminate|]. injection E as <-. exact IH.
    + cbn [perform] in E. unfold popTrackerAndSetHeap, bind, get, assert_, throw_if, ret, rd32, put in E.
      destruct (_ && _); [|discriminate]. destruct (_ <? _); [discriminate|]. destruct (in_mem _ _ _); [|discriminate].
      destruct (_ || _); [discriminate|]. injection E as <-. exact IH.
    + cbn [perform] in E. unfold setCellValue, bind, throwIfBadAddress, wr32 in E.
      destruct (bad_address _ _); [discriminate|]. destruct (in_mem _ _ _); [|discriminate]. injection E as <-. exact IH.
    + cbn [perform] in E. unfold getCellValue, bind, throwIfBadAddress, rd32, ret in E.
      destruct (bad_address _ _); [discriminate|]. destruct (in_mem _ _ _); [|discriminate]. injection E as <-. exact IH.
Qed.
Lemma scope_visible m d top g : forall h s f sc, coh m d top g h s f sc -> base_sc g sc = -1 -> sc = -1 \/ d <= sc < h.
Proof.
  induction g as [|[h0 old|f0 c h0 old n] g IH]; cbn [coh base_sc]; intros h s f sc H B; [now left|..].
  - destruct H as (-> & H1 & H2 & _ & H3). apply coh_bounds in H3. right. lia.
  - destruct H as (_ & H1 & H2 & H3 & _ & _ & _ & _ & H4 & -> & _ & H5). destruct (IH _ _ _ _ H5 B); [now left|right; lia].
Qed.
(* Leaving the innermost heap scope releases everything allocated in it. *)
Lemma scope_out s h old g : history s (Scope h old :: g) ->
  leaveHeapScope s = Ok tt (set_hp_scope old (set_hp h s)).
Proof.
  intros H. pose proof (base_inv _ _ H) as B. apply history_HI in H. destruct H as (L & F & S & C).
  cbn [coh base_sc] in *. destruct C as (C1 & C2 & C3 & C4 & C5). pose proof (scope_visible _ _ _ _ _ _ _ _ C5 B) as V.
  apply coh_bounds in C5. unfold leaveHeapScope, bind, get, put.
  rewrite throwIfBadAddress_ok by (rewrite C1; unfold script_address, in_gap; wsimp; dlay; lia).
  unfold rd32. rewrite in_mem_true by (rewrite C1; dlay; lia). rewrite C1, C4. wsimp.
  destruct (old =? -1) eqn:E; [reflexivity|].
  rewrite throwIfBadAddress_ok; [reflexivity|]. unfold script_address, in_gap. wsimp. dlay. lia.
Qed.
(* Popping the tracker entry just pushed releases exactly the recorded amount. *)
Lemma track_in_out s n s1 : layout s -> pointers_ok s -> 0 <= n <= hp s - data_size s -> pushTracker n s = Ok tt s1 ->
  exists s2, popTrackerAndSetHeap s1 = Ok tt s2 /\ hp s2 = hp s - n /\ sp s2 = sp s /\ frm s2 = frm s /\
    hp_scope s2 = hp_scope s /\ mem s2 = mem s1.
Proof.
  intros L P Hn E. unfold pushTracker, bind, get, assert_, throw_if, ret, wr32, put in E.
  destruct (negb _); [|discriminate]. destruct (_ >? _); [discriminate|].
  rewrite wrap32_id in E by (dlay; bnd). unfold STACK_MARGIN in E. destruct (_ <? _) eqn:E1; [discriminate|].
  rewrite in_mem_true in E by (dlay; lia). wsimp. rewrite (wrap32_id n) in E by (dlay; bnd).
  rewrite (wrap32_id (hp s + 4)) in E by (dlay; bnd). injection E as <-.
  eexists. split.
  - unfold popTrackerAndSetHeap. erewrite bind_ok by reflexivity. wsimp. rewrite (wrap32_id (data_size s)) by (dlay; bnd).
    replace ((sp s >=? hp s + 4) && (hp s + 4 >=? data_size s)) with true by (dlay; lia).
    erewrite bind_ok by reflexivity. rewrite (wrap32_id (hp s + 4 - data_size s)) by (dlay; bnd).
    replace (hp s + 4 - data_size s <? 4) with false by (dlay; lia). erewrite bind_ok by reflexivity.
    replace (hp s + 4 - 4) with (hp s) by lia. rewrite (wrap32_id (hp s)) by (dlay; bnd).
    erewrite bind_ok by reflexivity. erewrite bind_ok by reflexivity. wsimp.
    erewrite bind_ok by (unfold rd32; rewrite in_mem_true by (wsimp; dlay; lia); reflexivity). wsimp.
    rewrite load32_store32_same, (wrap32_id n) by (dlay; bnd). rewrite (wrap32_id (hp s - data_size s)) by (dlay; bnd).
    replace ((n <? 0) || (hp s - data_size s <? n)) with false by (dlay; lia). erewrite bind_ok by reflexivity.
    unfold put. rewrite wrap32_id by (dlay; bnd). reflexivity.
  - wsimp. repeat split; reflexivity.
Qed.
Lemma outcome_example : exists s g, history s g /\ disciplined s g (OHeap 40) /\ disciplined s g (OHeap 20000) /\
  expected s (OHeap 40) = Some (Ok tt (set_hp (hp s + 40) s)) /\ expected s (OHeap 20000) = Some (Fail HEAPLOW s).
Proof.
  do 2 eexists. split. { eapply (h_next _ _ (OPush 5)); [exact (h_start _ demo_fresh)|exact Logic.I|vm_compute; reflexivity]. }
  split. { vm_compute. repeat split; discriminate. }
  split. { vm_compute. repeat split; discriminate. }
  split; unfold expected.
  - match goal with |- context [if ?b then _ else _] => replace b with false by (vm_compute; reflexivity) end.
    match goal with |- context [if ?b then _ else _] => replace b with false by (vm_compute; reflexivity) end. reflexivity.
  - match goal with |- context [if ?b then _ else _] => replace b with false by (vm_compute; reflexivity) end.
    match goal with |- context [if ?b then _ else _] => replace b with true by (vm_compute; reflexivity) end. reflexivity.
Qed.
