(* Functions that give their heap back, and functions that do not: C45. *)
From Coq Require Import ZifyBool Lia.
From Verif Require Import Base Base_Proofs Rt_Model Rt_Spec Rt_Proofs Hist_Proofs Hs_Model Hs_Spec Hs_Proofs Hs_Vm.
Ltac Zify.zify_post_hook ::= idtac.

Fixpoint rounds (n : nat) (e : list op) : list op := match n with O => [] | S m => e ++ rounds m e end.

(* void f() { while (p()) { int a[100]; if (q()) break; for (;;) { int b[50]; if (r(1)) continue; break; } } } where r
   takes its argument by reference *)
Definition inner : stmt := Block [Plain 50; If 1 Continue; Break].
Definition good : stmt :=
  Block [While test (Block [Plain 100; If 0 Break; For 0 None 0 inner])].
Definition good_inner : list op := [OScopeIn; OHeap 200; OHeap 4; OScopeOut].
Definition good_last : list op := [OScopeIn; OHeap 200; OHeap 4; OScopeOut].
Definition good_round : list op := [OScopeIn; OHeap 400] ++ good_inner ++ good_last ++ [OScopeOut].
Lemma inner_continues : path [true] 1 (TStmt true inner) good_inner Cnt.
Proof.
  apply (p_own [true] 1 true inner [OHeap 200; OHeap 4; OScopeOut] Cnt); [reflexivity|].
  apply p_block. apply (p_next _ _ _ _ [OHeap 200] [OHeap 4; OScopeOut]); [apply p_free; [reflexivity|apply (p_plain _ _ 50)]|].
  apply p_leave; [|discriminate]. apply p_free; [reflexivity|]. apply (p_if _ _ 1 _ [OScopeOut]).
  apply p_free; [reflexivity|]. apply (p_continue [true; true] 1).
Qed.
Lemma inner_breaks : path [true] 1 (TStmt true inner) good_last Brk.
Proof.
  apply (p_own [true] 1 true inner [OHeap 200; OHeap 4; OScopeOut] Brk); [reflexivity|].
  apply p_block. apply (p_next _ _ _ _ [OHeap 200] [OHeap 4; OScopeOut]); [apply p_free; [reflexivity|apply (p_plain _ _ 50)]|].
  apply (p_next _ _ _ _ [OHeap 4] [OScopeOut]); [apply p_free; [reflexivity|apply (p_if_not _ _ 1)]|].
  apply p_leave; [|discriminate]. apply p_free; [reflexivity|]. apply (p_break [true; true] 1).
Qed.
Lemma good_body : path [] 0 (TStmt true (Block [Plain 100; If 0 Break; For 0 None 0 inner])) good_round Nrm.
Proof.
  apply (p_own [] 0 true (Block [Plain 100; If 0 Break; For 0 None 0 inner]) ([OHeap 400] ++ good_inner ++ good_last) Nrm); [reflexivity|].
  apply p_block. apply (p_next _ _ _ _ [OHeap 400]); [apply p_free; [reflexivity|apply (p_plain _ _ 100)]|].
  apply (p_next _ _ _ _ [] (good_inner ++ good_last)); [apply p_free; [reflexivity|apply (p_if_not _ _ 0)]|].
  rewrite <- (app_nil_r (good_inner ++ good_last)). apply (p_next _ _ _ _ (good_inner ++ good_last)); [|apply p_nil].
  apply p_free; [reflexivity|]. apply (p_for _ _ 0 None 0 inner (good_inner ++ good_last)).
  apply (f_round [true] 0 None 0 inner good_inner Cnt good_last Nrm); [reflexivity|exact inner_continues|reflexivity|].
  apply (f_leave [true] 0 None 0 inner good_last Brk); [reflexivity|exact inner_breaks|reflexivity].
Qed.
Lemma good_path n : path [] 0 (TStmt true good) (rounds n good_round) Nrm.
Proof.
  apply p_free; [reflexivity|]. apply p_block. rewrite <- (app_nil_r (rounds n good_round)).
  apply p_next; [|apply p_nil]. apply p_free; [reflexivity|]. apply p_while.
  induction n as [|n IH]; [apply (w_exit [] 0 test); reflexivity|].
  apply (w_round [] 0 test _ good_round Nrm (rounds n good_round) Nrm); [reflexivity|exact good_body|reflexivity|exact IH].
Qed.
Lemma good_tame : tame true good = true /\ need good = 660. Proof. split; reflexivity. Qed.
(* However many rounds, 660 bytes do. *)
Lemma good_runs n : exists s', path [] 0 (TStmt true good) (rounds n good_round) Nrm /\
  perform_all (rounds n good_round) demo_rt = Ok tt s' /\ hp s' = hp demo_rt.
Proof.
  destruct (heap_straight good (rounds n good_round) Nrm demo_rt [] (good_path n) eq_refl (h_start _ demo_fresh)) as (s' & E & _ & N).
  - vm_compute; reflexivity.
  - vm_compute; discriminate.
  - exists s'. destruct (N eq_refl). auto using good_path.
Qed.
Lemma good_along : exists s', along demo_rt [] [OScopeIn; OHeap 400] s' [Scope (hp demo_rt) (-1)] /\ hp s' = hp demo_rt + 404 /\
  sp s' < sp demo_rt.
Proof.
  pose (s1 := st (perform OScopeIn demo_rt) demo_rt). pose (s2 := st (perform (OHeap 400) s1) demo_rt).
  pose (s3 := st (perform (OPush 7) s2) demo_rt).
  assert (H0 : history demo_rt []) by (apply h_start, demo_fresh).
  assert (E1 : perform OScopeIn demo_rt = Ok tt s1) by reflexivity.
  assert (H1 : history s1 [Scope (hp demo_rt) (-1)]) by (apply (h_step demo_rt [] OScopeIn s1 H0 Logic.I E1)).
  assert (E2 : perform (OHeap 400) s1 = Ok tt s2) by reflexivity.
  assert (D2 : disciplined s1 [Scope (hp demo_rt) (-1)] (OHeap 400)).
  { split; [split; vm_compute; (reflexivity || discriminate)|]. split; vm_compute; (reflexivity || discriminate). }
  assert (H2 : history s2 [Scope (hp demo_rt) (-1)]) by (apply (h_step s1 _ (OHeap 400) s2 H1 D2 E2)).
  assert (E3 : perform (OPush 7) s2 = Ok tt s3) by reflexivity.
  assert (H3 : history s3 [Scope (hp demo_rt) (-1)]) by (apply (h_step s2 _ (OPush 7) s3 H2 Logic.I E3)).
  exists s3. split; [|split; vm_compute; reflexivity].
  apply (a_else _ _ _ s2); [|exact H3|constructor; reflexivity|reflexivity|reflexivity].
  apply (a_heap _ _ [OScopeIn] s1 [Scope (hp demo_rt) (-1)] (OHeap 400) s2); [|exact E2].
  apply (a_heap _ _ [] demo_rt [] OScopeIn s1); [apply a_start|exact E1].
Qed.

(* ---- Leaks ---- *)
Definition low (r : res rt unit) : bool := match r with Fail HEAPLOW _ => true | _ => false end.
Lemma low_fail r : low r = true -> exists s', r = Fail HEAPLOW s'.
Proof. destruct r as [u s|e s|u]; cbn; try discriminate. destruct e; try discriminate. eauto. Qed.

Lemma bad_continue_path n : path [] 0 (TStmt true bad_continue) (rounds n [OHeap 400]) Stop.
Proof.
  apply p_free; [reflexivity|]. apply p_block. apply p_leave; [|discriminate]. apply p_free; [reflexivity|]. apply p_while.
  induction n as [|n IH]; [apply p_stop|].
  apply (w_round [] 0 forever _ [OHeap 400] Cnt (rounds n [OHeap 400]) Stop); [reflexivity| |reflexivity|exact IH].
  apply (p_own [] 0 true (Block [Plain 100; If 0 Continue; Return 0]) [OHeap 400] Cnt); [reflexivity|]. apply p_block.
  apply (p_next _ _ _ _ [OHeap 400] []); [apply p_free; [reflexivity|apply (p_plain _ _ 100)]|].
  apply p_leave; [|discriminate]. apply p_free; [reflexivity|]. apply (p_if _ _ 0 _ []).
  apply p_free; [reflexivity|]. apply (p_continue [false] 0).
Qed.
Lemma bad_break_path n : path [] 0 (TStmt true bad_break) (rounds n [OHeap 400]) Stop.
Proof.
  apply p_free; [reflexivity|]. apply p_block. apply p_leave; [|discriminate]. apply p_free; [reflexivity|]. apply p_while.
  induction n as [|n IH]; [apply p_stop|].
  apply (w_round [] 0 test _ [OHeap 400] Nrm (rounds n [OHeap 400]) Stop); [reflexivity| |reflexivity|exact IH].
  apply p_free; [reflexivity|]. apply p_while.
  apply (w_leave [] 0 forever _ [OHeap 400] Brk); [reflexivity| |reflexivity].
  apply (p_own [] 0 true (Block [Plain 100; If 0 Break; Return 0]) [OHeap 400] Brk); [reflexivity|]. apply p_block.
  apply (p_next _ _ _ _ [OHeap 400] []); [apply p_free; [reflexivity|apply (p_plain _ _ 100)]|].
  apply p_leave; [|discriminate]. apply p_free; [reflexivity|]. apply (p_if _ _ 0 _ []).
  apply p_free; [reflexivity|]. apply (p_break [false] 0).
Qed.
Lemma bad_for_path n : path [] 0 (TStmt true bad_for) (OScopeIn :: rounds n [OHeap 256]) Stop.
Proof.
  pose proof (p_own [] 0 true bad_for (rounds n [OHeap 256]) Stop eq_refl) as G. cbn [save app needs_restore] in G.
  change (needs_restore bad_for) with true in G. cbn [save app] in G. rewrite app_nil_r in G. apply G. clear G.
  apply p_block. apply p_leave; [|discriminate]. apply p_free; [reflexivity|]. apply (p_for _ _ 0).
  induction n as [|n IH]; [apply p_stop|].
  apply (f_round [true] 0 (Some (mkCond 64 None)) 0 (Block []) [] Nrm (rounds n [OHeap 256]) Stop); [reflexivity| |reflexivity|exact IH].
  apply p_free; [reflexivity|]. apply p_block. apply p_nil.
Qed.
Lemma leak_continue : exists evs s s', path [] 0 (TStmt true bad_continue) evs Stop /\ fresh s /\ need bad_continue <= 500 /\
  sp s - hp s >= 16000 /\ perform_all evs s = Fail HEAPLOW s'.
Proof.
  destruct (low_fail (perform_all (rounds 41 [OHeap 400]) demo_rt)) as (s' & E); [vm_compute; reflexivity|].
  exists (rounds 41 [OHeap 400]), demo_rt, s'. split; [apply bad_continue_path|]. split; [apply demo_fresh|].
  split; [vm_compute; discriminate|]. split; [vm_compute; discriminate|exact E].
Qed.
Lemma leak_break : exists evs s s', path [] 0 (TStmt true bad_break) evs Stop /\ fresh s /\ need bad_break <= 500 /\
  sp s - hp s >= 16000 /\ perform_all evs s = Fail HEAPLOW s'.
Proof.
  destruct (low_fail (perform_all (rounds 41 [OHeap 400]) demo_rt)) as (s' & E); [vm_compute; reflexivity|].
  exists (rounds 41 [OHeap 400]), demo_rt, s'. split; [apply bad_break_path|]. split; [apply demo_fresh|].
  split; [vm_compute; discriminate|]. split; [vm_compute; discriminate|exact E].
Qed.
Lemma leak_for : exists evs s s', path [] 0 (TStmt true bad_for) evs Stop /\ fresh s /\ need bad_for <= 500 /\
  sp s - hp s >= 16000 /\ perform_all evs s = Fail HEAPLOW s'.
Proof.
  destruct (low_fail (perform_all (OScopeIn :: rounds 64 [OHeap 256]) demo_rt)) as (s' & E); [vm_compute; reflexivity|].
  exists (OScopeIn :: rounds 64 [OHeap 256]), demo_rt, s'. split; [apply bad_for_path|]. split; [apply demo_fresh|].
  split; [vm_compute; discriminate|]. split; [vm_compute; discriminate|exact E].
Qed.
