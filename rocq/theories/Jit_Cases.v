(* A method compiled and run as proved, calls, and a loop the watchdog cannot stop: C46, C25. *)
From Verif Require Import Base Rtti_Model Rt_Model Array_Model Interp_Model Rt_Spec Mem_Spec Cfg_Model Cfg_Spec Dom_Model Dom_Spec X64_Model X64_Spec Jit_Model Jit_Spec.
From Verif Require Import Base_Proofs Rt_Proofs Cfg_Proofs Dom_Proofs Dom_Build X64_Cases Jit_Proofs Jit_Call Jit_Poll.
From Verif Require Ver_Model Ver_Cases.
From Coq Require Import ZifyBool Lia.
Ltac Zify.zify_post_hook ::= Z.div_mod_to_equations.

(* Floats that are never compared, converted or added. *)
Definition plain_fe : fenv := mkFenv (fun op p => if op =? 174 then wrap32 (Z.lxor (u32 p) two31) else 0) (fun op _ _ => b2z (fcond None op)) (fun _ => 0) (fun _ _ _ => 0) (fun _ _ => 0).
Lemma plain_agree : floats_agree plain_fe no_fp.
Proof.
  constructor; try reflexivity; cbn [no_fp plain_fe p_of_int p_arith p_fmod p_ucomi p_nearest p_trunc p_floor p_ceil f1 f2 fun1].
  all: try (intros; repeat split; unfold is_i32, two31; lia).
  - intros op o p a [E | [E | []]] _ _; injection E as <- <-; split; [reflexivity|unfold is_i32, two31; lia|reflexivity|unfold is_i32, two31; lia].
  - intros op o p a [E | [E | []]] _ _; injection E as <- <-; split; [reflexivity|unfold is_i32, two31; lia|reflexivity|unfold is_i32, two31; lia].
Qed.
Lemma plain_cells : float_cells plain_fe.
Proof.
  repeat split; cbn [plain_fe f1 f2 fcvt fbin fun1]; try (unfold is_i32, two31; lia).
  - destruct (n =? 174); [apply wrap32_range|unfold is_i32, two31; lia].
  - destruct (n =? 174); [apply wrap32_range|unfold is_i32, two31; lia].
  - unfold is_i32, two31, b2z. destruct (fcond None n); lia.
  - unfold is_i32, two31, b2z. destruct (fcond None n); lia.
Qed.
Lemma none_ok : natives_ok no_natives. Proof. intros n nt f E. discriminate. Qed.

(* Checking a claim about the registers cell by cell. *)
Definition le2b (k k' : bool * bool) : bool := implb (fst k) (fst k') && implb (snd k) (snd k').
Lemma le2b_ok k k' : le2b k k' = true -> le2 k k'.
Proof. destruct k as [[] []], k' as [[] []]; try discriminate; intros _; split; auto. Qed.
Definition keeps_b (code : list Z) (K : Z -> bool * bool) (pc : Z) : bool :=
  let next := pc + insn_size code pc in
  match decode code pc with
  | None => true
  | Some RETN => fst (K pc)
  | Some (CALL _) => le2b (K next) (true, false)
  | Some (JUMP o) => le2b (K (o / 4)) (K pc)
  | Some (JCMP c o) => fst (K pc) && match c with Zero | NotZero => true | _ => snd (K pc) end && le2b (K next) (K pc) && le2b (K (o / 4)) (K pc)
  | Some (SWITCH t) => fst (K pc) && forallb (fun o => le2b (K (o / 4)) (K pc)) (table_offsets code (t / 4))
  | Some i => match flow i (K pc) with Some k => le2b (K next) k | None => false end
  end.
Lemma keeps_b_ok code K pc : keeps_b code K pc = true -> keeps code K pc.
Proof.
  unfold keeps_b, keeps. destruct (decode code pc) as [i|]; [|auto].
  assert (D : match flow i (K pc) with Some k => le2b (K (pc + insn_size code pc)) k | None => false end = true ->
              exists k, flow i (K pc) = Some k /\ le2 (K (pc + insn_size code pc)) k).
  { destruct (flow i (K pc)) as [k|]; [|discriminate]. intros H. exists k. split; [reflexivity|now apply le2b_ok]. }
  destruct i; try exact D; clear D.
  - auto.
  - apply le2b_ok.
  - apply le2b_ok.
  - intros H. apply andb_true_iff in H. destruct H as [H H4]. apply andb_true_iff in H. destruct H as [H H3]. apply andb_true_iff in H. destruct H as [H1 H2].
    split; [exact H1|]. split; [destruct c; auto|]. split; now apply le2b_ok.
  - intros H. apply andb_true_iff in H. destruct H as [H1 H2]. split; [exact H1|]. rewrite forallb_forall in H2. intros o IN. apply le2b_ok. now apply H2.
Qed.
(* A set of cells closed under control flow. *)
Definition stays (code : list Z) (S : list Z) (pc : Z) : bool :=
  let inb z := existsb (Z.eqb z) S in
  match decode code pc with
  | Some RETN | None => true
  | Some (JUMP t) => inb (t / 4)
  | Some (JCMP _ t) => inb (t / 4) && inb (pc + insn_size code pc)
  | Some (SWITCH t) => forallb (fun o => inb (o / 4)) (table_offsets code (t / 4))
  | Some _ => inb (pc + insn_size code pc)
  end.
Lemma inb_In z S : existsb (Z.eqb z) S = true -> In z S.
Proof. intros H. apply existsb_exists in H. destruct H as (y & I0 & E). apply Z.eqb_eq in E. now subst. Qed.
Lemma reach_closed code m S : In (m + 1) S -> forallb (stays code S) S = true -> forall pc, reaches code m pc -> In pc S.
Proof.
  intros I0 C pc R. rewrite forallb_forall in C. induction R as [|pc R IH F|pc o R IH J]; [exact I0| |].
  - specialize (C _ IH). unfold stays, falls_through in *. destruct (decode code pc) as [i|]; [|contradiction].
    destruct i; try contradiction; try (apply inb_In; exact C). apply andb_true_iff in C. apply inb_In. tauto.
  - specialize (C _ IH). unfold stays, jumps_to in *. destruct (decode code pc) as [i|]; [|contradiction]. destruct i; try contradiction.
    + subst o. now apply inb_In.
    + subst o. apply andb_true_iff in C. apply inb_In. tauto.
    + rewrite forallb_forall in C. apply inb_In, C. unfold table_offsets. destruct J as [-> |(k & K & ->)]; [now left|right].
      match goal with |- In (cell_at code (?t / 4 + 4 + 2 * k)) _ => replace (t / 4 + 4 + 2 * k) with (t / 4 + 3 + 1 + 2 * k) by lia end. apply Cfg_Proofs.in_case_offsets. lia.
Qed.
Lemma registers_by_table code m S K : In (m + 1) S -> forallb (stays code S) S = true -> forallb (keeps_b code K) S = true -> registers_ok code m K.
Proof.
  intros I0 C H pc R. apply keeps_b_ok. rewrite forallb_forall in H. apply H. exact (reach_closed _ _ _ I0 C _ R).
Qed.

(* ---- A loop: PROC; CONST.pri 3; L: ADD.C -1; STOR 512; JNZ L; RETN ---- *)
Definition countdown : list Z := [46; 11; 3; 87; -1; 15; 512; 54; 12; 48].
Definition cd_build := build true 50 50 countdown 0.
Lemma cd_ok : code_ok countdown.
Proof. split; [|unfold two31; cbn; lia]. unfold countdown, is_i32, two31. repeat (apply Forall_cons; [lia|]). apply Forall_nil. Qed.
Definition cd_prog : prog := mkProg countdown no_natives (fun _ => inr INVALID_INSTRUCTION).
Definition cd_K (pc : Z) : bool * bool := if pc =? 1 then (false, false) else (true, false).
Definition cd_start : config := mkConfig (small (fun _ => 0) 1024 65520 65520) (mkAct no_locals 1 77 88) [].
Definition never : config -> bool := fun _ => false.

Lemma cd_accepted : accepted countdown 0.
Proof. exists true, 400%nat. eexists. vm_compute. reflexivity. Qed.
Lemma counts_in code m : forallb (fun k => negb (cell_at code (Z.of_nat k) =? OP_CASETBL) || (0 <=? cell_at code (Z.of_nat k + 1))) (seq 0 (length code)) = true -> counts_ok code m.
Proof.
  intros H pc _ E. rewrite forallb_forall in H.
  assert (B : 0 <= pc < Z.of_nat (length code)).
  { unfold cell_at, OP_CASETBL in E. destruct (pc <? 0) eqn:N; [discriminate|]. destruct (Z_lt_ge_dec pc (Z.of_nat (length code))); [lia|]. rewrite nth_overflow in E by lia. discriminate. }
  specialize (H (Z.to_nat pc)). rewrite Z2Nat.id in H by lia. rewrite E in H. assert (I0 : In (Z.to_nat pc) (seq 0 (length code))) by (apply in_seq; lia).
  specialize (H I0). cbn [Z.eqb negb orb] in H. unfold OP_CASETBL in H. rewrite Z.eqb_refl in H. cbn [negb orb] in H. lia.
Qed.
Lemma cd_counts : counts_ok countdown 0.
Proof. apply counts_in. vm_compute. reflexivity. Qed.
Lemma cd_registers : registers_ok countdown 0 cd_K.
Proof. apply (registers_by_table _ _ [1; 3; 5; 7; 9]); [left; reflexivity|vm_compute; reflexivity|vm_compute; reflexivity]. Qed.
Lemma cd_supported : supported (c_rt cd_start) no_natives countdown no_locals 0.
Proof.
  intros pc i R D P. assert (I0 : In pc [1; 3; 5; 7; 9]) by (refine (reach_closed _ _ _ _ _ _ R); [left; reflexivity|vm_compute; reflexivity]).
  cbn [In] in I0. repeat (destruct I0 as [<- | I0]; [vm_compute in D; injection D as <-; try contradiction; discriminate|]). destruct I0.
Qed.

Lemma cd_unshared : unshared countdown 0.
Proof.
  intros pc i pc' i' t R _ (o & D & _). assert (I0 : In pc [1; 3; 5; 7; 9]) by (refine (reach_closed _ _ _ _ _ _ R); [left; reflexivity|vm_compute; reflexivity]).
  cbn [In] in I0. repeat (destruct I0 as [<- | I0]; [vm_compute in D; discriminate D|]). destruct I0.
Qed.

(* Steps at instructions on which nothing more is asked. *)
Definition easy (i : option instr) : bool := match i with Some (CONST _ _ | ADD_C _ | STOR _ _ | JCMP _ _ | SWITCH _) => true | _ => false end.
Fixpoint steps (p : prog) (n : nat) (c : config) : option config :=
  match n with
  | O => Some c
  | Datatypes.S n' => if easy (decode (p_code p) (a_pc (c_cur c)))
                      then match step false plain_fe p never c with Next _ c' => steps p n' c' | _ => None end else None
  end.
Lemma steps_within base p n : forall c c', steps p n c = Some c' -> within base plain_fe p never c c'.
Proof.
  induction n as [|n IH]; intros c c' H; [injection H as <-; constructor|]. cbn [steps] in H.
  destruct (easy (decode (p_code p) (a_pc (c_cur c)))) eqn:E; [|discriminate]. destruct (step false plain_fe p never c) as [b c1| | |] eqn:S1; try discriminate.
  apply (within_step _ _ _ _ c b c1 c'); [|exact S1|now apply IH]. unfold agreeable. destruct (decode (p_code p) (a_pc (c_cur c))) as [i|]; [|discriminate].
  destruct i; try discriminate E; split; exact Logic.I.
Qed.
Definition ends_at (pc v : Z) (o : option config) : bool := match o with Some c => (a_pc (c_cur c) =? pc) && (a_pri (c_cur c) =? v) | None => false end.
Lemma cd_runs : exists c', within 65536 plain_fe cd_prog never cd_start c' /\ a_pc (c_cur c') = 9 /\ a_pri (c_cur c') = 0.
Proof.
  assert (H : ends_at 9 0 (steps cd_prog 10 cd_start) = true) by (vm_compute; reflexivity).
  destruct (steps cd_prog 10 cd_start) as [c'|] eqn:E; [|discriminate]. exists c'. split; [exact (steps_within _ _ _ _ _ E)|]. cbn in H. lia.
Qed.
Lemma cd_matches pr g : matches 65536 (c_rt cd_start) countdown 0 no_locals pr g cd_K cd_start (mkJat 0 1 (machine 65536 (state_of cd_start))).
Proof.
  constructor; cbn [j_cell j_block j_x cd_start c_cur c_rt a_pc a_meth state_of].
  - reflexivity.
  - now left.
  - constructor.
  - exact (reach_first _ _).
  - reflexivity.
  - apply small_running; [intros; lia|unfold is_i32, two31; cbn; lia ..].
  - constructor; reflexivity.
  - destruct (machine_holds 65536 (state_of cd_start)); constructor; auto.
Qed.
Definition goodb {A} (r : cres A) : bool := match r with CGood _ => true | _ => false end.
Lemma goodb_ok {A} (r : cres A) : goodb r = true -> exists x, r = CGood x. Proof. destruct r; try discriminate. eauto. Qed.
Lemma cd_built : exists pr g a, build true 50 50 countdown 0 = CGood (pr, g, a).
Proof. destruct (goodb_ok (build true 50 50 countdown 0)) as (((pr & g) & a) & E); [vm_compute; reflexivity|]. eauto. Qed.

(* ---- A loop none of whose jumps the watchdog can redirect ----
   0: PROC; JUMP B; A (3): JZER X; B (5): JUMP A; X (7): RETN.  Emitted in the order 0, B, A, X: B runs into A, and A falls
   through to B by a plain jump. *)
Definition unstoppable : list Z := [46; 51; 20; 53; 28; 51; 12; 48].
Lemma us_ok : code_ok unstoppable.
Proof. split; [|unfold two31; cbn; lia]. unfold unstoppable, is_i32, two31. repeat (apply Forall_cons; [lia|]). apply Forall_nil. Qed.
Lemma us_counts : counts_ok unstoppable 0.
Proof. apply counts_in. vm_compute. reflexivity. Qed.
Definition us_graph (r : cres (pre * graph * analysis)) : option (list Z * list Z * list Z * option Z * option Z) :=
  match r with CGood (_, g, a) => Some (an_rpo a, g_succ g 5, g_succ g 3, block_end_at g 5, block_end_at g 3) | _ => None end.
Lemma us_built : exists pr g a, build true 50 50 unstoppable 0 = CGood (pr, g, a) /\ an_rpo a = [0; 5; 3; 7] /\ g_succ g 5 = [3] /\ g_succ g 3 = [5; 7] /\
  block_end_at g 5 = Some 7 /\ block_end_at g 3 = Some 5.
Proof.
  assert (H : us_graph (build true 50 50 unstoppable 0) = Some ([0; 5; 3; 7], [3], [5; 7], Some 7, Some 5)) by (vm_compute; reflexivity).
  destruct (build true 50 50 unstoppable 0) as [((pr & g) & a)| | |]; try discriminate. exists pr, g, a.
  cbn [us_graph] in H. split; [reflexivity|]. injection H. auto.
Qed.
Lemma us_loop base env fp natives junk mi pr g a : build true 50 50 unstoppable 0 = CGood (pr, g, a) ->
  forall n x, xr x RAX = 1 -> exists j', unrecorded base env fp natives junk unstoppable mi g (an_rpo a) (n + n) (mkJat 5 5 x) j'.
Proof.
  intros E. destruct us_built as (pr' & g' & a' & E' & RP & S5 & S3 & B5 & B3). rewrite E in E'. injection E' as <- <- <-.
  induction n as [|n IH]; intros x X; [eexists; constructor|]. cbn [Nat.add]. rewrite Nat.add_succ_r.
  set (x' := setf (Some (test_flags L (xr x RAX) (xr x RAX))) x). destruct (IH x') as (j' & U); [exact X|]. exists j'.
  apply (unrec_S _ _ _ _ _ _ _ _ _ _ _ (mkJat 3 3 x)).
  - unfold jstep. cbn [j_block j_cell j_x]. rewrite B5. cbn [Z.eqb]. change (decode unstoppable 5) with (Some (JUMP 12)).
    change (5 =? 7) with false. cbv iota. unfold emitJUMP. rewrite S5, RP. change (isNextBlock [0; 5; 3; 7] 5 3) with true. reflexivity.
  - apply (unrec_S _ _ _ _ _ _ _ _ _ _ _ (mkJat 5 5 x')); [|exact U].
    unfold jstep. cbn [j_block j_cell j_x]. rewrite B3. change (3 =? 5) with false. change (decode unstoppable 3) with (Some (JCMP Zero 28)). cbv iota.
    rewrite S3, RP. change (emitJcmp [0; 5; 3; 7] 3 [5; 7] Zero) with (Some [ TC (Test L RAX RAX); TJcc not_equal 5 ]).
    cbn [run_end trun xexec]. unfold x'. cbn [setf xf]. rewrite X. reflexivity.
Qed.
(* The method of the unstoppable loop is accepted by every pass of the verifier. *)
Lemma us_verified : exists v, Ver_Model.verify true 60 200 (Ver_Cases.plain unstoppable) 0 = CGood (Some v).
Proof.
  assert (H : match Ver_Model.verify true 60 200 (Ver_Cases.plain unstoppable) 0 with CGood (Some _) => true | _ => false end = true) by (vm_compute; reflexivity).
  destruct (Ver_Model.verify true 60 200 (Ver_Cases.plain unstoppable) 0) as [[v|]| | |]; try discriminate. now exists v.
Qed.
Lemma us_runs : exists code m strict rounds fuel pr g a b,
  (exists v, Ver_Model.verify true 60 200 (Ver_Cases.plain code) (4 * m) = CGood (Some v)) /\ code_ok code /\ counts_ok code m /\ build strict rounds fuel code m = CGood (pr, g, a) /\
  reaches code m b /\ In b (g_known g) /\
  forall base env fp natives junk mi s x n, holds base true true s x -> pri s = 1 ->
    exists j', unrecorded base env fp natives junk code mi g (an_rpo a) (n + n) (mkJat b b x) j'.
Proof.
  destruct us_built as (pr & g & a & E & RP & _). exists unstoppable, 0, true, 50%nat, 50%nat, pr, g, a, 5.
  split; [exact us_verified|]. split; [exact us_ok|]. split; [exact us_counts|]. split; [exact E|]. split; [exact (reach_jump unstoppable 0 1 20 (reach_first _ _) eq_refl)|]. split.
  - destruct (build_good _ _ _ _ _ _ _ _ us_ok E) as (B & A & _).
    assert (S5 : In 3 (g_succ g 5)). { destruct us_built as (pr' & g' & a' & E' & _ & S5 & _). rewrite E in E'. injection E' as <- <- <-. rewrite S5. now left. }
    destruct (bo_edge _ _ _ _ B _ _ S5) as [[C | K] _]; [discriminate|exact K].
  - intros base env fp natives junk mi s x n H P. apply (us_loop base env fp natives junk mi pr g a E). rewrite (ho_pri _ _ _ _ _ H eq_refl), P. reflexivity.
Qed.

(* ---- A call and its return: the numbers of arguments, locals and scopes are not zero ---- *)
Definition callee : meth := mkMeth true [-4; -12].
Definition call_rt : rt := small (fun a => if a =? 65000 then 2 else 0) 1024 65000 65100.
Lemma call_case : same_plugin call_rt call_rt /\ running (mkIst call_rt 5 6) /\ holds 65536 true true (mkIst call_rt 5 6) (machine 65536 (mkIst call_rt 5 6)) /\
  8 <= sp call_rt /\ - 100 <= StackSizeForLocalSlots callee < 0 /\ room 100 call_rt /\ load32 (mem call_rt) (sp call_rt) = 2 /\
  ~ room 64000 call_rt.
Proof.
  split; [constructor; reflexivity|]. split.
  - apply small_running; [intros z; cbv beta; destruct (z =? 65000); lia|unfold is_i32, two31; lia ..].
  - split; [apply machine_holds|]. split; [vm_compute; discriminate|]. split; [split; vm_compute; [discriminate|reflexivity]|].
    split; [right; vm_compute; discriminate|]. split; [vm_compute; reflexivity|]. intros [H | H]; vm_compute in H; [discriminate|now apply H].
Qed.
(* The same call in the interpreter moves the heap pointer: compiled code does not. *)
Lemma call_heap_case : exists r mi, running (mkIst r 5 6) /\ slot_table_ok mi /\ room 100 r /\
  exists r', Interp_Model.enter mi r = Ok tt r' /\ hp r' = hp (on_entry (StackSizeForLocalSlots mi) r) + 4.
Proof.
  destruct call_case as (_ & R & _ & _ & _ & RM & _). exists call_rt, callee. split; [exact R|]. split; [unfold slot_table_ok, is_i32, two31; repeat (apply Forall_cons; [lia|]); apply Forall_nil|]. split; [exact RM|].
  assert (H : match Interp_Model.enter callee call_rt with Ok _ r' => hp r' =? hp (on_entry (StackSizeForLocalSlots callee) call_rt) + 4 | _ => false end = true) by (vm_compute; reflexivity).
  destruct (Interp_Model.enter callee call_rt) as [[] r'| |]; try discriminate. exists r'. split; [reflexivity|]. apply Z.eqb_eq in H. exact H.
Qed.
(* In the countdown the block of the loop is left by its jump back at the latest. *)
Lemma cd_quiet base env fp natives junk pr g a x : build true 50 50 countdown 0 = CGood (pr, g, a) ->
  in_method countdown 0 pr g (mkJat 0 1 x) /\
  exists x', quietly base env fp natives junk countdown no_locals g (an_rpo a) 1 (mkJat 0 1 x) (mkJat 0 3 x').
Proof.
  intros E. split; [constructor; [now left|constructor|exact (reach_first _ _)]|]. eexists.
  assert (BE : block_end_at g 0 <> Some 1).
  { assert (H : match build true 50 50 countdown 0 with CGood (_, g, _) => match block_end_at g 0 with Some z => negb (z =? 1) | None => false end | _ => false end = true) by (vm_compute; reflexivity).
    rewrite E in H. intros C. rewrite C in H. discriminate. }
  eapply quietly_S; [|intros []|constructor]. unfold jstep. cbn [j_block j_cell j_x]. destruct (block_end_at g 0) as [e|] eqn:B.
  - destruct (1 =? e) eqn:Q; [apply Z.eqb_eq in Q; subst; now destruct BE|]. reflexivity.
  - exfalso. assert (H : match build true 50 50 countdown 0 with CGood (_, g, _) => match block_end_at g 0 with Some z => true | None => false end | _ => false end = true) by (vm_compute; reflexivity).
    rewrite E, B in H. discriminate.
Qed.
Lemma cd_all :
  natives_ok no_natives /\ floats_agree plain_fe no_fp /\ float_cells plain_fe /\ code_ok countdown /\ counts_ok countdown 0 /\
  registers_ok countdown 0 cd_K /\ supported (c_rt cd_start) no_natives countdown no_locals 0 /\ unshared countdown 0 /\
  (exists c', within 65536 plain_fe cd_prog never cd_start c' /\ a_pc (c_cur c') = 9 /\ a_pri (c_cur c') = 0) /\
  exists pr g a, build true 50 50 countdown 0 = CGood (pr, g, a) /\
    matches 65536 (c_rt cd_start) countdown 0 no_locals pr g cd_K cd_start (mkJat 0 1 (machine 65536 (state_of cd_start))).
Proof.
  split; [exact none_ok|]. split; [exact plain_agree|]. split; [exact plain_cells|]. split; [exact cd_ok|]. split; [exact cd_counts|]. split; [exact cd_registers|].
  split; [exact cd_supported|]. split; [exact cd_unshared|]. split; [exact cd_runs|]. destruct cd_built as (pr & g & a & E). exists pr, g, a. split; [exact E|apply cd_matches].
Qed.

(* ---- Switches: PROC; CONST.pri 2; SWITCH; A: RETN; B: RETN; D: RETN; the table ----
   Two cases with their own bodies; three of which two share one. *)
Definition two_cases : list Z := [46; 11; 2; 129; 32; 48; 48; 48; 130; 2; 28; 1; 20; 2; 24].
Definition three_cases : list Z := [46; 11; 2; 129; 32; 48; 48; 48; 130; 3; 28; 1; 20; 2; 20; 3; 24].
Definition sw_prog (code : list Z) : prog := mkProg code no_natives (fun _ => inr INVALID_INSTRUCTION).
Definition sw_start (code : list Z) : config := mkConfig (small (fun _ => 0) 1024 65520 65520) (mkAct no_locals 3 2 88) [].
Lemma sw_matches code pr g : code = two_cases \/ code = three_cases -> ~ joins (pr_targets pr) 0 1 ->
  matches 65536 (c_rt (sw_start code)) code 0 no_locals pr g cd_K (sw_start code) (mkJat 0 3 (machine 65536 (state_of (sw_start code)))).
Proof.
  intros C NJ. constructor; cbn [j_cell j_block j_x sw_start c_cur c_rt a_pc a_meth state_of].
  - reflexivity.
  - now left.
  - assert (SZ : insn_size code 1 = 2) by (destruct C as [-> | ->]; reflexivity). change 3 with (1 + 2). rewrite <- SZ. apply span_next.
    + exact (span_first code 0 (pr_targets pr) 0).
    + exact NJ.
    + destruct C as [-> | ->]; reflexivity.
  - assert (SZ : insn_size code 1 = 2) by (destruct C as [-> | ->]; reflexivity). change 3 with (1 + 2). rewrite <- SZ. apply reach_fall; [exact (reach_first _ _)|].
    destruct C as [-> | ->]; exact Logic.I.
  - reflexivity.
  - apply small_running; [intros; lia|unfold is_i32, two31; cbn; lia ..].
  - constructor; reflexivity.
  - destruct (machine_holds 65536 (state_of (sw_start code))); constructor; auto.
Qed.
Lemma sw_code_ok : code_ok two_cases /\ code_ok three_cases.
Proof. split; (split; [|unfold two31; cbn; lia]); unfold two_cases, three_cases, is_i32, two31; repeat (apply Forall_cons; [lia|]); apply Forall_nil. Qed.
Lemma sw_counts : counts_ok two_cases 0 /\ counts_ok three_cases 0.
Proof. split; apply counts_in; vm_compute; reflexivity. Qed.
Lemma sw_registers : registers_ok two_cases 0 cd_K /\ registers_ok three_cases 0 cd_K.
Proof. split; (apply (registers_by_table _ _ [1; 3; 5; 6; 7]); [left; reflexivity|vm_compute; reflexivity|vm_compute; reflexivity]). Qed.
Lemma sw_supported code : code = two_cases \/ code = three_cases -> supported (c_rt (sw_start code)) no_natives code no_locals 0.
Proof.
  intros C pc i R D P. assert (I0 : In pc [1; 3; 5; 6; 7]) by (destruct C as [-> | ->]; (refine (reach_closed _ _ _ _ _ _ R); [left; reflexivity|vm_compute; reflexivity])).
  destruct C as [-> | ->]; cbn [In] in I0; repeat (destruct I0 as [<- | I0]; [vm_compute in D; injection D as <-; try contradiction; discriminate|]); destruct I0.
Qed.
Lemma two_unshared : unshared two_cases 0.
Proof.
  assert (A : forall pc i t, reaches two_cases 0 pc -> sequence_case two_cases pc i t -> pc = 3 /\ (i = 0 /\ t = 5 \/ i = 1 /\ t = 6)).
  { intros pc i t R (o & D & H). assert (I0 : In pc [1; 3; 5; 6; 7]) by (refine (reach_closed _ _ _ _ _ _ R); [left; reflexivity|vm_compute; reflexivity]).
    cbn [In] in I0. destruct I0 as [<- | [<- | [<- | [<- | [<- | []]]]]]; vm_compute in D; try discriminate D. injection D as <-.
    cbv zeta in H. destruct H as (_ & _ & I1 & ->). change (cell_at two_cases (32 / 4 + 1)) with 2 in I1. split; [reflexivity|].
    assert (C : i = 0 \/ i = 1) by lia. destruct C as [-> | ->]; [left|right]; split; reflexivity. }
  intros pc i pc' i' t R R' H H'. destruct (A _ _ _ R H) as [-> X], (A _ _ _ R' H') as [-> X']. split; [reflexivity|]. lia.
Qed.
Lemma sw_runs code pc : code = two_cases /\ pc = 6 \/ code = three_cases /\ pc = 5 ->
  exists c', within 65536 plain_fe (sw_prog code) never (sw_start code) c' /\ a_pc (c_cur c') = pc.
Proof.
  intros C. assert (H : ends_at pc 2 (steps (sw_prog code) 1 (sw_start code)) = true) by (destruct C as [[-> ->] | [-> ->]]; vm_compute; reflexivity).
  destruct (steps (sw_prog code) 1 (sw_start code)) as [c'|] eqn:E; [|discriminate]. exists c'. split; [exact (steps_within _ _ _ _ _ E)|]. cbn in H. lia.
Qed.
Definition no_target (pr : pre) : bool := negb (existsb (Z.eqb 1) (pr_targets pr)).
Lemma no_joins pr : no_target pr = true -> ~ joins (pr_targets pr) 0 1.
Proof.
  unfold no_target. intros H [I0 _]. assert (X : existsb (Z.eqb 1) (pr_targets pr) = true) by (apply existsb_exists; exists 1; split; [exact I0|reflexivity]).
  rewrite X in H. discriminate.
Qed.
Lemma two_cases_all : code_ok two_cases /\ counts_ok two_cases 0 /\ registers_ok two_cases 0 cd_K /\
  supported (c_rt (sw_start two_cases)) no_natives two_cases no_locals 0 /\ unshared two_cases 0 /\
  (exists c', within 65536 plain_fe (sw_prog two_cases) never (sw_start two_cases) c' /\ a_pc (c_cur c') = 6) /\
  exists pr g a, build true 50 50 two_cases 0 = CGood (pr, g, a) /\
    matches 65536 (c_rt (sw_start two_cases)) two_cases 0 no_locals pr g cd_K (sw_start two_cases) (mkJat 0 3 (machine 65536 (state_of (sw_start two_cases)))).
Proof.
  split; [apply sw_code_ok|]. split; [apply sw_counts|]. split; [apply sw_registers|]. split; [apply sw_supported; now left|]. split; [exact two_unshared|].
  split; [apply sw_runs; auto|].
  assert (H : match build true 50 50 two_cases 0 with CGood (pr, _, _) => no_target pr | _ => false end = true) by (vm_compute; reflexivity).
  destruct (build true 50 50 two_cases 0) as [((pr & g) & a)| | |] eqn:E; try discriminate H. exists pr, g, a. split; [reflexivity|].
  apply sw_matches; [now left|now apply no_joins].
Qed.
Definition three_seen (r : cres (pre * graph * analysis)) : option (bool * option Z * list Z * list Z * list (option Z)) :=
  match r with CGood (pr, g, a) => Some (no_target pr, block_end_at g 0, g_succ g 0, an_rpo a, table_of three_cases g (an_rpo a) 0) | _ => None end.
Lemma shared_case : exists code m K,
  (exists v, Ver_Model.verify true 60 200 (Ver_Cases.plain code) (4 * m) = CGood (Some v)) /\
  code_ok code /\ counts_ok code m /\ registers_ok code m K /\ supported (c_rt (sw_start code)) no_natives code no_locals m /\
  exists pr g a, build true 50 50 code m = CGood (pr, g, a) /\
  exists j, matches 65536 (c_rt (sw_start code)) code m no_locals pr g K (sw_start code) j /\
    (exists c', within 65536 plain_fe (sw_prog code) never (sw_start code) c' /\ a_pc (c_cur c') = 5) /\
    forall fp junk, exists x, jstep 65536 (c_rt (sw_start code)) fp no_natives junk code no_locals g (an_rpo a) j = JStart x.
Proof.
  exists three_cases, 0, cd_K. split.
  { assert (H : match Ver_Model.verify true 60 200 (Ver_Cases.plain three_cases) 0 with CGood (Some _) => true | _ => false end = true) by (vm_compute; reflexivity).
    change (4 * 0) with 0. destruct (Ver_Model.verify true 60 200 (Ver_Cases.plain three_cases) 0) as [[v|]| | |]; try discriminate. now exists v. }
  split; [apply sw_code_ok|]. split; [apply sw_counts|]. split; [apply sw_registers|]. split; [apply sw_supported; now right|].
  assert (H : exists rpo, three_seen (build true 50 50 three_cases 0) = Some (true, Some 5, [7; 5; 5; 6], rpo, [Some 5; None; Some 6])) by (eexists; vm_compute; reflexivity).
  destruct H as (rpo & H). destruct (build true 50 50 three_cases 0) as [((pr & g) & a)| | |] eqn:E; try discriminate H. unfold three_seen in H. injection H as H1 H2 H3 H4 H5.
  exists pr, g, a. split; [reflexivity|]. exists (mkJat 0 3 (machine 65536 (state_of (sw_start three_cases)))).
  split; [apply sw_matches; [now right|now apply no_joins]|]. split; [apply sw_runs; auto|].
  intros fp junk. eexists. unfold jstep. cbn [j_block j_cell j_x]. rewrite H2. change (3 =? 5) with false. cbv iota.
  change (decode three_cases 3) with (Some (SWITCH 32)). cbv iota zeta. rewrite H3, H5.
  change (case_values three_cases (Z.to_nat (cell_at three_cases (32 / 4 + 1))) (32 / 4 + 3)) with [1; 2; 3].
  unfold emitSWITCH. cbn [length Z.of_nat negb]. change (uses_table [1; 2; 3]) with true. cbn [run_end].
  reflexivity.
Qed.
