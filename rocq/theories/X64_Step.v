(* Running the emitted code, one machine instruction at a time. *)
From Verif Require Import Base Rt_Model Array_Model Interp_Model Rt_Spec Mem_Spec X64_Model X64_Spec.
From Verif Require Import Base_Proofs Rt_Proofs Mem_Proofs.
From Coq Require Import ZifyBool Lia.
Ltac Zify.zify_post_hook ::= idtac.

Lemma u64_id z : 0 <= z < two64 -> u64 z = z.
Proof. intros. unfold u64. now apply Z.mod_small. Qed.
Lemma u32_small z : 0 <= z < two32 -> u32 z = z.
Proof. intros. now apply u32_id. Qed.
Lemma wrap32_of_u32 z : is_i32 z -> wrap32 (u32 z) = z.
Proof. intros. rewrite wrap32_u32. now apply wrap32_id. Qed.
Lemma u32_u32 z : u32 (u32 z) = u32 z.
Proof. unfold u32. rewrite Z.mod_mod; [reflexivity|discriminate]. Qed.
Lemma u32_bounds z : 0 <= u32 z < two32.
Proof. apply u32_range. Qed.

(* ---- Inverting the interpreter's steps ---- *)
Lemma bind_inv S A B (m : S -> res S A) (k : A -> S -> res S B) s b s' :
  bind m k s = Ok b s' -> exists a s1, m s = Ok a s1 /\ k a s1 = Ok b s'.
Proof. unfold bind. destruct (m s) as [a s1| |]; try discriminate. eauto. Qed.
Lemma lift_inv A (m : RM A) s a s1 : lift m s = Ok a s1 -> exists r, m (rts s) = Ok a r /\ s1 = mkIst r (pri s) (alt s).
Proof. unfold lift. destruct (m (rts s)); intros [= <- <-]. eauto. Qed.

Lemma getCell_inv r a v r' : layout r -> getCellValue a r = Ok v r' -> script_address r a /\ v = load32 (mem r) a /\ r' = r.
Proof.
  intros L H. destruct (script_address_dec r a) as [S|S].
  - rewrite getCellValue_ok in H by assumption. injection H as <- <-. auto.
  - rewrite getCellValue_bad in H by assumption. discriminate.
Qed.
Lemma setCell_inv r a v u r' : layout r -> setCellValue a v r = Ok u r' -> script_address r a /\ r' = set_mem (store32 (mem r) a v) r.
Proof.
  intros L H. destruct (script_address_dec r a) as [S|S].
  - rewrite setCellValue_ok in H by assumption. injection H as _ <-. auto.
  - rewrite setCellValue_bad in H by assumption. discriminate.
Qed.
Lemma tiba_inv r a v r' : throwIfBadAddress a r = Ok v r' -> script_address r a /\ v = a /\ r' = r.
Proof.
  intros H. destruct (script_address_dec r a) as [S|S].
  - rewrite throwIfBadAddress_ok in H by assumption. injection H as <- <-. auto.
  - rewrite throwIfBadAddress_bad in H by assumption. discriminate.
Qed.
Lemma acquire_inv r a n v r' : acquireAddrRange a n r = Ok v r' ->
  script_address r a /\ (n <> 0 -> script_address r (wrap32 (a + n - 1))) /\ v = a /\ r' = r.
Proof.
  intros H. unfold acquireAddrRange in H. apply bind_inv in H. destruct H as (b & s1 & H1 & H2).
  apply tiba_inv in H1. destruct H1 as (S & -> & ->). destruct (n =? 0) eqn:E.
  - injection H2 as <- <-. split; [auto|]. split; [lia|auto].
  - apply bind_inv in H2. destruct H2 as (c & s2 & H2 & H3). apply tiba_inv in H2. destruct H2 as (S2 & -> & ->).
    injection H3 as <- <-. auto.
Qed.
Lemma slot_inv r o v r' : acquireInt64Slot o r = Ok v r' -> script_address r (wrap32 (frm r + o)) /\ v = wrap32 (frm r + o) /\ r' = r.
Proof.
  unfold acquireInt64Slot. destruct (bad_address r (wrap32 (frm r + o))) eqn:E; [discriminate|]. intros [= <- <-].
  split; [now apply bad_address_spec|auto].
Qed.
Lemma rd32_inv r a v r' : rd32 a r = Ok v r' -> 0 <= a /\ a + 4 <= mem_size r /\ v = load32 (mem r) a /\ r' = r.
Proof. unfold rd32, in_mem. destruct (_ && _) eqn:E; [|discriminate]. intros [= <- <-]. repeat split; lia. Qed.
Lemma wr32_inv r a v u r' : wr32 a v r = Ok u r' -> 0 <= a /\ a + 4 <= mem_size r /\ r' = set_mem (store32 (mem r) a v) r.
Proof. unfold wr32, in_mem. destruct (_ && _) eqn:E; [|discriminate]. intros H. injection H as _ <-. repeat split; lia. Qed.
Lemma rd64_inv r a v r' : rd64 a r = Ok v r' -> 0 <= a /\ a + 8 <= mem_size r /\ v = load64 (mem r) a /\ r' = r.
Proof. unfold rd64, in_mem. destruct (_ && _) eqn:E; [|discriminate]. intros [= <- <-]. repeat split; lia. Qed.
Lemma wr64_inv r a v u r' : wr64 a v r = Ok u r' -> 0 <= a /\ a + 8 <= mem_size r /\ r' = set_mem (store64 (mem r) a v) r.
Proof. unfold wr64, in_mem. destruct (_ && _) eqn:E; [|discriminate]. intros H. injection H as _ <-. repeat split; lia. Qed.
Lemma push_inv r v u r' : in_bounds r -> pushStack v r = Ok u r' ->
  hp r + 4 < sp r /\ r' = set_mem (store32 (mem r) (sp r - 4) v) (set_sp (sp r - 4) r).
Proof.
  intros I0 H. rewrite pushStack_eq in H by exact I0. destruct (sp r <=? hp r + 4) eqn:E; [discriminate|].
  injection H as _ <-. split; [lia|reflexivity].
Qed.
Lemma pop_inv r v r' : in_bounds r -> popStack r = Ok v r' -> sp r < stp r /\ v = load32 (mem r) (sp r) /\ r' = set_sp (sp r + 4) r.
Proof.
  intros I0 H. rewrite popStack_eq in H by exact I0. destruct (sp r >=? stp r) eqn:E; [discriminate|].
  injection H as <- <-. split; [lia|auto].
Qed.

(* ---- The machine ---- *)
Definition is_jump (i : xi) : bool := match i with JFwd _ _ => true | _ => false end.

(* Agreement on everything but rcx and the flags. *)
Definition alike (x x' : xst) : Prop :=
  (forall q, q <> RCX -> xr x' q = xr x q) /\ xc x' = xc x /\ xm x' = xm x /\ xpush x' = xpush x /\ exn x' = exn x.

Section Go.
Variables (base : Z) (env : rt) (fp : fpu) (nat_ : Z -> option native) (junk : gpr -> Z).
Notation run := (xrun base env fp nat_ junk).
Notation step := (xexec base env fp nat_ junk).

Definition goes (code : list xi) (k : nat) (x : xst) (P : xst -> Prop) : Prop := exists x', run code k x = XOk x' /\ P x'.
Lemma goes_nil x (P : xst -> Prop) : P x -> goes [] 0 x P. Proof. intros H. exists x. auto. Qed.
Lemma goes_cons i rest x x1 P : is_jump i = false -> step i x = XOk x1 -> goes rest 0 x1 P -> goes (i :: rest) 0 x P.
Proof.
  intros J E (x' & R & H). exists x'. split; [|exact H]. destruct i; try discriminate J; cbn [xrun]; rewrite E; exact R.
Qed.
Lemma goes_skip i rest k x P : goes rest k x P -> goes (i :: rest) (S k) x P.
Proof. intros (x' & R & H). exists x'. auto. Qed.
Lemma goes_jump c n rest x f P : xf x = Some f -> goes rest (if cond c f then n else 0%nat) x P -> goes (JFwd c n :: rest) 0 x P.
Proof. intros E (x' & R & H). exists x'. split; [|exact H]. cbn [xrun]. rewrite E. destruct (cond c f); exact R. Qed.
Lemma xrun_app c1 : forall c2 k x x', run c1 k x = XOk x' -> run (c1 ++ c2) k x = run c2 0 x'.
Proof.
  induction c1 as [|i c1 IH]; intros c2 k x x' H; cbn [xrun app] in *.
  - destruct k; [|discriminate]. now injection H as <-.
  - destruct k as [|k]; [|now apply IH].
    destruct i; try (match goal with |- context [step ?j x] => destruct (step j x) as [x1| |] eqn:E end; try discriminate; now apply IH).
    destruct (xf x) as [f|]; [|discriminate]. destruct (cond c f); now apply IH.
Qed.
Lemma goes_app c1 c2 k x P : goes c1 k x (fun x1 => goes c2 0 x1 P) -> goes (c1 ++ c2) k x P.
Proof. intros (x1 & R & x' & R' & H). exists x'. split; [|exact H]. now rewrite (xrun_app _ _ _ _ _ R). Qed.
Lemma goes_weak c k x (P Q : xst -> Prop) : (forall x', P x' -> Q x') -> goes c k x P -> goes c k x Q.
Proof. intros H (x' & R & X). exists x'. auto. Qed.

Definition mem_op (m : mref) : Prop := match m with Ctx _ => False | _ => True end.
Lemma ok_at_true a n : 0 <= a -> a + n <= mem_size env -> ok_at base env (base + a) n = true.
Proof. unfold ok_at. lia. Qed.
Lemma load_L m x a : mem_op m -> ea m x = base + a -> 0 <= a -> a + 4 <= mem_size env ->
  load base env L m x = Some (u32 (load32 (xm x) a)).
Proof.
  intros M E H1 H2. unfold load. destruct m; try contradiction; rewrite E, ok_at_true by lia;
  replace (base + a - base) with a by lia; reflexivity.
Qed.
Lemma load_Q m x a : mem_op m -> ea m x = base + a -> 0 <= a -> a + 8 <= mem_size env ->
  load base env Q m x = Some (u64 (load64 (xm x) a)).
Proof.
  intros M E H1 H2. unfold load. destruct m; try contradiction; rewrite E, ok_at_true by lia;
  replace (base + a - base) with a by lia; reflexivity.
Qed.
Lemma store_L m v x a : mem_op m -> ea m x = base + a -> 0 <= a -> a + 4 <= mem_size env ->
  store base env L m v x = Some (setm (store32 (xm x) a (wrap32 v)) x).
Proof.
  intros M E H1 H2. unfold store. destruct m; try contradiction; rewrite E, ok_at_true by lia;
  replace (base + a - base) with a by lia; reflexivity.
Qed.
Lemma store_Q m v x a : mem_op m -> ea m x = base + a -> 0 <= a -> a + 8 <= mem_size env ->
  store base env Q m v x = Some (setm (store64 (xm x) a (wrap64 v)) x).
Proof.
  intros M E H1 H2. unfold store. destruct m; try contradiction; rewrite E, ok_at_true by lia;
  replace (base + a - base) with a by lia; reflexivity.
Qed.
Lemma go_load d m a rest x P : mem_op m -> ea m x = base + a -> 0 <= a -> a + 4 <= mem_size env ->
  goes rest 0 (setr d (u32 (load32 (xm x) a)) x) P -> goes (Load L d m :: rest) 0 x P.
Proof. intros M E H1 H2 G. eapply goes_cons; [reflexivity| |exact G]. cbn [xexec]. now rewrite (load_L _ _ a). Qed.
Lemma go_loadq d m a rest x P : mem_op m -> ea m x = base + a -> 0 <= a -> a + 8 <= mem_size env ->
  goes rest 0 (setr d (u64 (load64 (xm x) a)) x) P -> goes (Load Q d m :: rest) 0 x P.
Proof. intros M E H1 H2 G. eapply goes_cons; [reflexivity| |exact G]. cbn [xexec]. now rewrite (load_Q _ _ a). Qed.
Lemma go_store m s a rest x P : mem_op m -> ea m x = base + a -> 0 <= a -> a + 4 <= mem_size env ->
  goes rest 0 (setm (store32 (xm x) a (wrap32 (xr x s))) x) P -> goes (Store L m s :: rest) 0 x P.
Proof. intros M E H1 H2 G. eapply goes_cons; [reflexivity| |exact G]. cbn [xexec]. now rewrite (store_L _ _ _ a). Qed.
Lemma go_storeq m s a rest x P : mem_op m -> ea m x = base + a -> 0 <= a -> a + 8 <= mem_size env ->
  goes rest 0 (setm (store64 (xm x) a (wrap64 (xr x s))) x) P -> goes (Store Q m s :: rest) 0 x P.
Proof. intros M E H1 H2 G. eapply goes_cons; [reflexivity| |exact G]. cbn [xexec]. now rewrite (store_Q _ _ _ a). Qed.
Lemma go_storei m v a rest x P : mem_op m -> ea m x = base + a -> 0 <= a -> a + 4 <= mem_size env ->
  goes rest 0 (setm (store32 (xm x) a (wrap32 v)) x) P -> goes (StoreI m v :: rest) 0 x P.
Proof. intros M E H1 H2 G. eapply goes_cons; [reflexivity| |exact G]. cbn [xexec]. now rewrite (store_L _ _ _ a). Qed.
Lemma go_cc c e rest x f P : xf x = Some f -> cond c f = false -> goes rest 0 x P -> goes (JErr c e :: rest) 0 x P.
Proof. intros E C G. eapply goes_cons; [reflexivity| |exact G]. cbn [xexec]. now rewrite E, C. Qed.

Hypothesis US : user_space base.
Lemma ea_at b d x k : xr x b = base + k -> 0 <= k + d < 2 ^ 40 -> ea (At b d) x = base + (k + d).
Proof. intros E H. unfold ea. rewrite E. rewrite u64_id; [lia|]. unfold user_space, two64 in *. lia. Qed.
Lemma ea_idx i x k : xr x R15 = base -> xr x i = k -> 0 <= k < 2 ^ 40 -> ea (Idx R15 i 1 0) x = base + k.
Proof. intros E1 E2 H. unfold ea. rewrite E1, E2. rewrite u64_id; [lia|]. unfold user_space, two64 in *. lia. Qed.

(* ---- The address check ---- *)
Lemma go_check q n a r rest x P : In q [RAX; RDX] -> layout r -> pointers_inside r -> mem_size env = mem_size r ->
  xr x q = u32 a -> xr x R14 = base + sp r -> xr x R15 = base -> xc x CHp = u32 (hp r) ->
  script_address r a -> n = 4 \/ n = 8 /\ a + 8 <= mem_size r ->
  (forall x', alike x x' -> goes rest 0 x' P) -> goes (emitCheckAddress env q n ++ rest) 0 x P.
Proof.
  intros Q0 L0 PI ES Eq E14 E15 EH [SA SG] N K. unfold in_gap in SG. destruct L0, PI.
  assert (A32 : u32 a = a) by (apply u32_small; unfold two32, two31 in *; lia).
  assert (H32 : u32 (hp r) = hp r) by (apply u32_small; unfold two32, two31 in *; lia).
  assert (NR : q <> RCX) by (destruct Q0 as [<- | [<- | []]]; discriminate).
  unfold emitCheckAddress. cbn [app].
  eapply goes_cons; [reflexivity|reflexivity|].
  eapply go_cc; [reflexivity| |].
  { cbn [cond cmp_flags cf mask setf xr]. rewrite Eq, A32, A32. rewrite u32_small by (unfold two32, two31 in *; lia). lia. }
  eapply goes_cons; [reflexivity|reflexivity|].
  eapply goes_jump; [reflexivity|].
  cbn [cond cmp_flags cf mask setf xr xc load]. rewrite Eq, EH, A32, H32, A32, !H32.
  assert (AL : forall f, alike x (setf f (setf (Some (cmp_flags L (xr x q) (mem_size env - n + 1))) x))) by (intros f; repeat split).
  destruct (a <? hp r) eqn:E.
  - do 3 apply goes_skip. apply K. split; [|repeat split]. intros. reflexivity.
  - eapply goes_cons; [reflexivity|reflexivity|].
    eapply goes_cons; [reflexivity|reflexivity|].
    eapply go_cc; [reflexivity| |].
    { cbn [cond cmp_flags cf mask setf setr xr]. 
      assert (G : gpr_eqb q RCX = false) by (destruct Q0 as [<- | [<- | []]]; reflexivity).
      replace (gpr_eqb R14 RCX) with false by reflexivity. replace (gpr_eqb RCX RCX) with true by reflexivity.
      cbn [ea setf setr xr]. rewrite E15, Eq, A32, E14. unfold user_space in US.
      rewrite (u64_id (base + a * 1 + 0)) by (unfold two64; unfold two31 in *; lia). rewrite !u64_id by (unfold two64; unfold two31 in *; lia). lia. }
    apply K. split; [|repeat split]. intros q' Hq. cbn [setf setr xr]. destruct q'; try reflexivity. contradiction.
Qed.
End Go.
