(* How compiled methods are entered and left: C46. *)
From Verif Require Import Base Rtti_Model Rt_Model Array_Model Interp_Model Rt_Spec Mem_Spec Cfg_Model Cfg_Spec Dom_Model Dom_Spec X64_Model X64_Spec Jit_Model Jit_Spec.
From Verif Require Import Base_Proofs Rt_Proofs X64_Ext X64_Step X64_Arith X64_Push.
From Coq Require Import ZifyBool Lia.
Ltac Zify.zify_post_hook ::= idtac.

Section Call.
Variables (base : Z) (env : rt) (fp : fpu) (nat_ : Z -> option native) (junk : gpr -> Z).
Hypothesis US : user_space base.
Notation G := (goes base env fp nat_ junk).
Notation run := (xrun base env fp nat_ junk).
Variables (r : rt) (p a : Z) (x : xst) (kp ka : bool).
Hypothesis SP : same_plugin env r.
Hypothesis HO : holds base kp ka (mkIst r p a) x.
Hypothesis LAY : layout r.

Lemma EP : kp = true -> xr x RAX = u32 p. Proof. exact (ho_pri _ _ _ _ _ HO). Qed.
Lemma EA : ka = true -> xr x RDX = u32 a. Proof. exact (ho_alt _ _ _ _ _ HO). Qed.
Lemma EF : xr x RBX = base + frm r. Proof. exact (ho_frm _ _ _ _ _ HO). Qed.
Lemma ES : xr x R14 = base + sp r. Proof. exact (ho_stk _ _ _ _ _ HO). Qed.
Lemma ED : xr x R15 = base. Proof. exact (ho_dat _ _ _ _ _ HO). Qed.
Lemma EH : xc x CHp = u32 (hp r). Proof. exact (ho_hp _ _ _ _ _ HO). Qed.
Lemma ECF : xc x CFrm = u32 (frm r). Proof. exact (ho_cfrm _ _ _ _ _ HO). Qed.
Lemma ESC : xc x CScope = u32 (hp_scope r). Proof. exact (ho_scope _ _ _ _ _ HO). Qed.
Lemma EX : exn x = None. Proof. exact (ho_exn _ _ _ _ _ HO). Qed.
Lemma EM : forall b, xm x b = mem r b. Proof. exact (ho_mem _ _ _ _ _ HO). Qed.
Lemma MS : mem_size env = mem_size r. Proof. symmetry. apply SP. Qed.

Ltac stepx := eapply goes_cons; [reflexivity|reflexivity|].
Ltac at_ k := rewrite (ea_at base US _ _ _ k); [lia|nx|zl].
Ltac sz := rewrite ?MS; zl.

(* The part before the check. *)
Definition pre_code : list xi :=
  [ AluI Q ASub R14 8; Load L RCX (Ctx CFrm); Store L (At R14 4) RCX; Load L RCX (Ctx CHp); Store L (At R14 0) RCX;
    MovRR Q RCX R14; MovRR Q RBX R14; Alu Q ASub RCX R15; Store L (Ctx CFrm) RCX ].
Lemma pre_goes rest P : 0 <= frm r < mem_size r -> 0 <= hp r <= stp r -> 8 <= sp r < mem_size r ->
  (forall x', holds base kp ka (mkIst (set_sp (sp r - 8) (on_entry 0 r)) p a) x' -> G rest 0 x' P) -> G (pre_code ++ rest) 0 x P.
Proof.
  intros F H S K. destruct LAY. pose proof MS as MS'. unfold pre_code. cbn [app].
  assert (U1 : u64 (xr x R14 - 8) = base + (sp r - 8)) by (rewrite ES, u64_id; [lia|zl]).
  assert (U2 : u64 (base + (sp r - 8)) = base + (sp r - 8)) by (rewrite u64_id; [lia|zl]).
  stepx. nx. cbn [eval_alu]. rewrite U1. stepx. nx. rewrite ECF, u32_u32.
  eapply (go_store base env fp nat_ junk _ _ (sp r - 4)); [exact Logic.I| |sz|sz|]. { at_ (sp r - 8). reflexivity. }
  nx. rewrite wrap32_of_u32 by zl. stepx. nx. rewrite EH, u32_u32.
  eapply (go_store base env fp nat_ junk _ _ (sp r - 8)); [exact Logic.I| |sz|sz|]. { at_ (sp r - 8). reflexivity. }
  nx. rewrite wrap32_of_u32 by zl. stepx. nx. rewrite U2. stepx. nx. rewrite U2. stepx. nx. cbn [eval_alu]. rewrite ED.
  replace (u64 (base + (sp r - 8) - base)) with (sp r - 8) by (rewrite u64_id; [lia|zl]). stepx. nx.
  apply K. unfold on_entry. constructor; nx; first [exact ED | exact EH | exact ESC | exact EX | exact EP | exact EA | reflexivity | idtac].
  intros z. apply store32_same, store32_same. exact EM.
Qed.
End Call.

Section Enter.
Variables (base : Z) (env : rt) (fp : fpu) (nat_ : Z -> option native) (junk : gpr -> Z).
Hypothesis US : user_space base.
Notation G := (goes base env fp nat_ junk).
Notation run := (xrun base env fp nat_ junk).
Ltac stepx := eapply goes_cons; [reflexivity|reflexivity|].

(* The check and the locals. *)
Definition check_code (ms : Z) : list xi :=
  [ Load L RAX (Ctx CHp); Lea RAX (Idx R15 RAX 1 STACK_MARGIN); Lea RCX (At R14 (- ms)); Cmp Q RCX RAX; X64_Model.JErr below (err_code STACKLOW) ].
Lemma prologue_eq mi ms : emitPrologue mi ms = pre_code ++ (if ms =? 0 then [] else check_code ms) ++
  (if StackSizeForLocalSlots mi =? 0 then [] else [ AluI Q AAdd R14 (StackSizeForLocalSlots mi) ]).
Proof. reflexivity. Qed.

Section State.
Variables (r : rt) (p a : Z) (x : xst) (kp ka : bool) (ms : Z).
Hypothesis HO : holds base kp ka (mkIst r p a) x.
Hypothesis LAY : layout r.
Hypothesis HP : 0 <= hp r <= stp r.
Hypothesis S : 0 <= sp r < mem_size r.
Hypothesis M : 0 <= ms <= base + sp r.

Lemma check_flags : let x1 := setr RCX (u64 (base + sp r + - ms)) (setr RAX (base + (hp r + 64)) (setr RAX (u32 (hp r)) x)) in
  run (check_code ms) 0 x = run [ X64_Model.JErr below (err_code STACKLOW) ] 0 (setf (Some (cmp_flags Q (base + sp r - ms) (base + (hp r + 64)))) x1) /\
  cond below (cmp_flags Q (base + sp r - ms) (base + (hp r + 64))) = (sp r - ms <? hp r + 64).
Proof.
  destruct LAY. cbv zeta. split.
  - unfold check_code. cbn [xrun xexec load]. nx. rewrite (ho_hp _ _ _ _ _ HO). cbn [rts]. rewrite u32_u32. cbn [ea]. nx.
    rewrite (ho_dat _ _ _ _ _ HO), (ho_stk _ _ _ _ _ HO). cbn [rts]. rewrite (u32_small (hp r)) by zl. unfold STACK_MARGIN.
    rewrite (u64_id (base + hp r * 1 + 64)) by zl. replace (base + hp r * 1 + 64) with (base + (hp r + 64)) by lia.
    rewrite (u64_id (base + sp r + - ms)) by zl. replace (base + sp r + - ms) with (base + sp r - ms) by lia. reflexivity.
  - cbn [cond cmp_flags cf mask]. rewrite !u64_id by zl. lia.
Qed.
Lemma check_goes rest P : hp r + 64 <= sp r - ms ->
  (forall x', holds base false ka (mkIst r p a) x' -> G rest 0 x' P) -> G (check_code ms ++ rest) 0 x P.
Proof.
  intros RM K. destruct check_flags as [R0 C]. destruct LAY.
  apply goes_app. eexists. split.
  - rewrite R0. cbn [xrun xexec setf xf]. rewrite C. replace (sp r - ms <? hp r + 64) with false by lia. reflexivity.
  - apply K. destruct HO. constructor; nx; auto. discriminate.
Qed.
Lemma check_stops rest : sp r - ms < hp r + 64 -> exists x', run (check_code ms ++ rest) 0 x = XErr (err_code STACKLOW) x'.
Proof.
  intros RM. destruct LAY. destruct check_flags as [_ C]. unfold check_code. cbn [app xrun xexec load]. nx. rewrite (ho_hp _ _ _ _ _ HO). cbn [rts]. rewrite u32_u32. cbn [ea]. nx.
  rewrite (ho_dat _ _ _ _ _ HO), (ho_stk _ _ _ _ _ HO). cbn [rts]. rewrite (u32_small (hp r)) by zl. unfold STACK_MARGIN.
  rewrite (u64_id (base + hp r * 1 + 64)) by zl. replace (base + hp r * 1 + 64) with (base + (hp r + 64)) by lia.
  rewrite (u64_id (base + sp r + - ms)) by zl. replace (base + sp r + - ms) with (base + sp r - ms) by lia.
  rewrite C. replace (sp r - ms <? hp r + 64) with true by lia. eexists. reflexivity.
Qed.
End State.

Theorem enters mi ms r p a x kp ka : same_plugin env r -> running (mkIst r p a) -> holds base kp ka (mkIst r p a) x ->
  8 <= sp r -> 0 <= ms -> - ms <= StackSizeForLocalSlots mi <= 0 -> room ms r ->
  exists x', run (emitPrologue mi ms) 0 x = XOk x' /\ holds base (kp && (ms =? 0)) ka (mkIst (on_entry (StackSizeForLocalSlots mi) r) p a) x'.
Proof.
  intros SP RN HO S MS0 LOC RM. pose proof RN as [[L P] F _ _ _]. cbn [rts] in *. destruct P. rewrite prologue_eq.
  apply (pre_goes base env fp nat_ junk US r p a x kp ka SP HO L); [lia|lia|lia|]. intros x1 H1. destruct L.
  set (r1 := set_sp (sp r - 8) (on_entry 0 r)) in *.
  assert (T : forall k x2, holds base k ka (mkIst r1 p a) x2 ->
     G (if StackSizeForLocalSlots mi =? 0 then [] else [ AluI Q AAdd R14 (StackSizeForLocalSlots mi) ]) 0 x2
       (holds base k ka (mkIst (on_entry (StackSizeForLocalSlots mi) r) p a))).
  { intros k x2 H2. destruct (Z.eqb_spec (StackSizeForLocalSlots mi) 0) as [->|NZ].
    - apply goes_nil. destruct H2. constructor; nx; auto. change (xr x2 R14 = base + (sp r - 8 + 0)). rewrite ho_stk. cbn [r1 sp set_sp rts]. lia.
    - stepx. apply goes_nil. destruct H2. constructor; nx; auto. cbn [eval_alu]. rewrite ho_stk. unfold r1, on_entry. nx.
      assert (BD : 0 <= sp r - 8 + StackSizeForLocalSlots mi) by (destruct RM; lia). rewrite u64_id; [lia|zl]. }
  destruct (Z.eqb_spec ms 0) as [->|NZ].
  - rewrite andb_true_r. cbn [app]. now apply T.
  - rewrite andb_false_r. destruct RM as [RM|RM]; [contradiction|].
    apply (check_goes r1 p a x1 kp ka ms H1); unfold r1, on_entry; nx.
    + constructor; assumption.
    + lia.
    + lia.
    + unfold user_space in US. lia.
    + lia.
    + intros x2 H2. now apply T.
Qed.

Theorem enter_refused mi ms r p a x kp ka : same_plugin env r -> running (mkIst r p a) -> holds base kp ka (mkIst r p a) x ->
  8 <= sp r -> 0 <= ms <= base + sp r - 8 -> ~ room ms r ->
  exists x', run (emitPrologue mi ms) 0 x = XErr (err_code STACKLOW) x'.
Proof.
  intros SP RN HO S MS0 RM. pose proof RN as [[L P] F _ _ _]. cbn [rts] in *. destruct P. rewrite prologue_eq.
  set (r1 := set_sp (sp r - 8) (on_entry 0 r)).
  assert (A : G pre_code 0 x (holds base kp ka (mkIst r1 p a))).
  { rewrite <- (app_nil_r pre_code). apply (pre_goes base env fp nat_ junk US r p a x kp ka SP HO L); [lia|lia|lia|]. intros x1 H1. now apply goes_nil. }
  destruct A as (x1 & R1 & H1). rewrite (xrun_app base env fp nat_ junk _ _ _ _ _ R1).
  unfold room in RM. destruct (Z.eqb_spec ms 0) as [->|NZ]; [exfalso; apply RM; now left|].
  destruct L. apply (check_stops r1 p a x1 kp ka ms H1); unfold r1, on_entry; nx; try lia. constructor; assumption.
Qed.
End Enter.

Section Leave.
Variables (base : Z) (env : rt) (fp : fpu) (nat_ : Z -> option native) (junk : gpr -> Z).
Hypothesis US : user_space base.
Notation G := (goes base env fp nat_ junk).
Notation run := (xrun base env fp nat_ junk).
Ltac stepx := eapply goes_cons; [reflexivity|reflexivity|].

(* Leaving scopes moves the heap pointer too; the return then sets it. *)
Lemma scopes_go p a kp n : forall r x ka rest P, same_plugin env r -> layout r -> holds base kp ka (mkIst r p a) x ->
  scopes_in (mem r) (mem_size r) n (hp_scope r) ->
  (forall h x', holds base kp (ka && Nat.eqb n 0) (mkIst (set_hp h (set_hp_scope (scope_out (mem r) n (hp_scope r)) r)) p a) x' -> G rest 0 x' P) ->
  G (leave_scopes n ++ rest) 0 x P.
Proof.
  induction n as [|n IH]; intros r x ka rest P SP L HO SC K.
  - cbn [leave_scopes app]. apply (K (hp r) x). rewrite andb_true_r. destruct HO. constructor; auto.
  - cbn [scopes_in scope_out] in *. destruct SC as (S1 & S2 & S3). pose proof L as [].
    assert (MS : mem_size env = mem_size r) by (symmetry; apply SP).
    cbn [leave_scopes app]. stepx. nx. pose proof (ho_scope _ _ _ _ _ HO) as ESC. cbn [rts] in ESC. rewrite ESC, u32_u32.
    assert (U : u32 (hp_scope r) = hp_scope r) by (apply u32_small; zl).
    eapply (go_load base env fp nat_ junk _ _ (hp_scope r)); [exact Logic.I| |zl|lia|].
    { rewrite (ea_idx base US _ _ (hp_scope r)); [reflexivity|nx; exact (ho_dat _ _ _ _ _ HO)|nx; exact U|zl]. }
    nx. do 2 stepx. nx. rewrite !u32_u32.
    assert (LD : load32 (xm x) (hp_scope r) = load32 (mem r) (hp_scope r)) by (apply load32_ext; intros; apply (ho_mem _ _ _ _ _ HO)).
    rewrite LD. set (h1 := load32 (mem r) (hp_scope r)) in *.
    set (r1 := set_hp (hp_scope r) (set_hp_scope h1 r)).
    apply (IH r1 _ false rest P); auto.
    + destruct SP; constructor; assumption.
    + constructor; assumption.
    + destruct HO. constructor; nx; auto. discriminate.
    + intros h x' H. apply (K h x'). rewrite andb_false_r. exact H.
Qed.

Theorem leaves_call n r p a x kp ka : same_plugin env r -> layout r -> holds base kp ka (mkIst r p a) x -> can_return n r ->
  exists x', run (emitRETN n) 0 x = XOk x' /\ holds base kp (ka && Nat.eqb n 0) (mkIst (on_return n r) p a) x'.
Proof.
  intros SP L HO [CF CW CS]. unfold emitRETN. apply (scopes_go p a kp n r x ka _ _ SP L HO CS). intros h x1 H1. pose proof L as [].
  assert (MS : mem_size env = mem_size r) by (symmetry; apply SP). set (sc := scope_out (mem r) n (hp_scope r)) in *.
  assert (M1 : forall b, xm x1 b = mem r b) by exact (ho_mem _ _ _ _ _ H1).
  assert (LD : forall b, load32 (xm x1) b = load32 (mem r) b) by (intros b; apply load32_ext; intros; apply M1).
  assert (B1 : xr x1 RBX = base + frm r) by exact (ho_frm _ _ _ _ _ H1).
  assert (D1 : xr x1 R15 = base) by exact (ho_dat _ _ _ _ _ H1).
  pose proof (load32_range (mem r) (frm r)) as W0. pose proof (load32_range (mem r) (frm r + 4)) as W1. pose proof (load32_range (mem r) (frm r + 8)) as W2.
  stepx. nx. rewrite B1, (u64_id (base + frm r)) by zl.
  eapply (go_load base env fp nat_ junk _ _ (frm r + 4)); [exact Logic.I| |zl|zl|].
  { rewrite (ea_at base US _ _ _ (frm r)); [lia|nx; reflexivity|zl]. }
  eapply (go_load base env fp nat_ junk _ _ (frm r)); [exact Logic.I| |zl|zl|].
  { rewrite (ea_at base US _ _ _ (frm r)); [lia|nx; reflexivity|zl]. }
  nx. rewrite !LD. stepx. nx. rewrite u32_u32. stepx. nx. cbn [eval_alu]. rewrite (u64_id (base + frm r + 8)) by zl.
  stepx. nx. rewrite u32_u32. stepx. nx. cbn [eval_alu]. rewrite D1. rewrite (u32_small (load32 (mem r) (frm r + 4))) by zl.
  rewrite (u64_id (load32 (mem r) (frm r + 4) + base)) by zl.
  eapply (go_load base env fp nat_ junk _ _ (frm r + 8)); [exact Logic.I| |zl|zl|].
  { rewrite (ea_at base US _ _ _ (frm r + 8)); [lia|nx; lia|zl]. }
  nx. rewrite LD. stepx. cbn [ea]. nx. rewrite (u32_small (load32 (mem r) (frm r + 8))) by zl. rewrite u64_id by zl.
  apply goes_nil. pose proof H1 as []. constructor; nx; auto.
  - unfold on_return. nx. lia.
  - unfold on_return. nx. lia.
  - unfold on_return. nx. now rewrite (u32_small (load32 (mem r) (frm r + 4))) by zl.
Qed.
End Leave.

(* A method called and returned from: what the caller had is back, and the arguments are gone. *)
Definition untouched (f : Z) (m m' : memory) : Prop := forall z, f <= z < f + 12 -> m' z = m z.
Theorem call_and_return base env fp nat_ junk mi r p a n r2 p2 a2 x2 kp2 ka2 : user_space base ->
  same_plugin env r -> running (mkIst r p a) -> 8 <= sp r -> sp r + 4 <= mem_size r -> 0 <= load32 (mem r) (sp r) ->
  (* the body: from the method's entry [r1] to the state [r2] at its return *)
  let r1 := on_entry (StackSizeForLocalSlots mi) r in
  same_plugin r1 r2 -> frm r2 = frm r1 -> untouched (frm r1) (mem r1) (mem r2) -> holds base kp2 ka2 (mkIst r2 p2 a2) x2 ->
  scopes_in (mem r2) (mem_size r2) n (hp_scope r2) -> scope_out (mem r2) n (hp_scope r2) = hp_scope r ->
  exists x3, xrun base env fp nat_ junk (emitRETN n) 0 x2 = XOk x3 /\
    holds base kp2 (ka2 && Nat.eqb n 0) (mkIst (set_mem (mem r2) (set_sp (sp r + 4 + 4 * load32 (mem r) (sp r)) r)) p2 a2) x3.
Proof.
  intros US SP RN S S2 NA r1 SP2 FR UT HO2 SC SCO. pose proof RN as [[L P] F _ _ _]. cbn [rts] in *. destruct P. destruct L.
  assert (F1 : frm r1 = sp r - 8) by reflexivity. rewrite F1 in *.
  assert (W : forall k, 0 <= k <= 8 -> load32 (mem r2) (sp r - 8 + k) = load32 (mem r1) (sp r - 8 + k)).
  { intros k K. apply load32_ext. intros i I0. apply UT. lia. }
  assert (W0 : load32 (mem r2) (sp r - 8) = hp r).
  { replace (sp r - 8) with (sp r - 8 + 0) by lia. rewrite W by lia. replace (sp r - 8 + 0) with (sp r - 8) by lia.
    unfold r1, on_entry. cbn [mem set_sp set_frm set_mem]. rewrite load32_store32_same. apply wrap32_id. zl. }
  assert (W4 : load32 (mem r2) (sp r - 8 + 4) = frm r).
  { rewrite W by lia. unfold r1, on_entry. cbn [mem set_sp set_frm set_mem]. rewrite load32_store32_other by lia.
    replace (sp r - 8 + 4) with (sp r - 4) by lia. rewrite load32_store32_same. apply wrap32_id. zl. }
  assert (W8 : load32 (mem r2) (sp r - 8 + 8) = load32 (mem r) (sp r)).
  { rewrite W by lia. unfold r1, on_entry. cbn [mem set_sp set_frm set_mem]. rewrite !load32_store32_other by lia. f_equal. lia. }
  assert (MS2 : mem_size r2 = mem_size r) by (rewrite (sp_size _ _ SP2); reflexivity).
  assert (SPE : same_plugin env r2).
  { destruct SP, SP2. constructor; etransitivity; eauto. }
  destruct (leaves_call base env fp nat_ junk US n r2 p2 a2 x2 kp2 ka2 SPE) as (x3 & X3 & H3); auto.
  - destruct SP2. constructor; change (data_size r2 = data_size r) in sp_data || idtac;
      cbn [r1 on_entry mem_size data_size stp set_sp set_frm set_mem] in *; lia.
  - constructor; rewrite ?FR, ?W0, ?W4, ?W8, ?MS2; try lia. rewrite <- MS2. exact SC.
  - exists x3. split; [exact X3|]. destruct H3. constructor; auto; revert ho_frm ho_stk ho_hp ho_cfrm ho_scope; unfold on_return; nx;
      rewrite FR, ?W0, ?W4, ?W8, ?SCO; intros; auto. rewrite ho_stk. lia.
Qed.
