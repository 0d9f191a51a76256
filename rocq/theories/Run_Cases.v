(* Verified programs that run as proved, and ones that reach what the verifier does not see to. *)
From Verif Require Import Base Base_Proofs Rtti_Model Rtti_Spec Rt_Model Array_Model Interp_Model Rt_Spec Mem_Spec Cfg_Model Cfg_Spec Cfg_Proofs
  Dom_Model Ver_Model Ver_Spec Ver_Cases Ver_Ops Run_Spec.
From Coq Require Import ZifyBool Lia.
Ltac Zify.zify_post_hook ::= idtac.

(* The program loaded from [env], whose methods at the offsets [entries] are called. *)
Definition loaded (env : venv) (entries : list Z) (natives : Z -> option native) : prog :=
  mkProg (v_code env) natives (fun o =>
    if existsb (Z.eqb o) entries then
      match verify true 60 200 env o with
      | CGood (Some v) => inl (mkMeth (v_typed env) (local_table (vi_sizes v) 0))
      | _ => inr INVALID_INSTRUCTION
      end
    else inr INVALID_INSTRUCTION).

Definition fresh_rt (env : venv) : rt :=
  mkRt (fun _ => 0) (v_mem env) (v_dat env) (v_dat env) (v_mem env - 4) (v_mem env - 4) (v_mem env - 4) (-1) (v_scopes env) (v_direct env).
Definition zero_fe : fenv := mkFenv (fun _ _ => 0) (fun _ _ _ => 0) (fun _ => 0) (fun _ _ _ => 0) (fun _ _ => 0).
Definition seven : native := mkNative (Some (fun s => Ok 7 s)) None.
Definition natives_of (env : venv) : Z -> option native := fun n => if (0 <=? n) && (n <? v_natives env) then Some seven else None.
Definition on_time : config -> bool := fun _ => false.

Definition base_ok (env : venv) (o : Z) : bool :=
  match verify true 60 200 env o with
  | CGood (Some v) => (0 <=? o) && (- two31 <=? StackSizeForLocalSlots (mkMeth (v_typed env) (local_table (vi_sizes v) 0)))
  | _ => true
  end.

Lemma loaded_verified env entries : code_ok (v_code env) ->
  forallb (fun k => negb (cell_at (v_code env) (Z.of_nat k) =? OP_CASETBL) || (0 <=? cell_at (v_code env) (Z.of_nat k + 1))) (seq 0 (length (v_code env))) = true ->
  forallb (base_ok env) entries = true -> verified env (loaded env entries (natives_of env)).
Proof.
  intros CO CA BO. constructor; [reflexivity|exact CO| |].
  - intros o mi E. cbn [p_validate loaded] in E. destruct (existsb (Z.eqb o) entries) eqn:X; [|discriminate].
    apply existsb_exists in X. destruct X as (o' & IN & EO). apply Z.eqb_eq in EO. subst o'.
    rewrite forallb_forall in BO. specialize (BO _ IN). unfold base_ok in BO.
    destruct (verify true 60 200 env o) as [[v|]| | |] eqn:V; try discriminate. injection E as <-.
    split; [lia|]. split; [apply counts_all; exact CA|]. split; [lia|]. exists true, 60%nat, 200%nat, v. auto.
  - intros n B. cbn [p_natives loaded]. unfold natives_of. destruct ((0 <=? n) && (n <? v_natives env)) eqn:X; [discriminate|lia].
Qed.

Lemma loaded_host env entries : host_ok env (loaded env entries (natives_of env)) zero_fe.
Proof.
  assert (N : forall n nt, natives_of env n = Some nt -> nt = seven).
  { intros n nt. unfold natives_of. destruct (_ && _); [congruence|discriminate]. }
  constructor; cbn [p_natives loaded].
  - intros n nt f E1 E2. apply N in E1. subst nt. injection E2 as <-. intros s IB. split; [|exact IB]. split; [constructor|]; reflexivity.
  - intros n nt f s v s' E1 E2 E3. apply N in E1. subst nt. injection E2 as <-. injection E3 as <- <-. split; [unfold is_i32, two31; lia|reflexivity].
  - intros pc n nt k f _ E1 E2. apply N in E1. subst nt. discriminate.
  - repeat split; intros; unfold is_i32, two31; cbn; lia.
Qed.

Lemma fresh_ready env args : 0 <= v_dat env -> v_dat env + 16384 <= v_mem env -> v_dat env + 4 * (Z.of_nat (length args) + 1) <= v_mem env - 4 -> v_mem env <= 1073741760 ->
  Forall is_i32 args -> ready env args (fresh_rt env).
Proof.
  intros D L M B F. unfold ready, fresh_rt. cbn [mem_size data_size hp sp]. assert (0 <= Z.of_nat (length args)) by lia.
  split; [split; constructor; cbn [mem_size data_size hp sp stp frm hp_scope]; unfold is_i32, two31; lia|].
  split; [constructor; cbn [mem_size data_size hp sp stp]; lia|]. auto.
Qed.

(* The verified program's function at 0, called with [args], touches memory it does not own. *)
Definition faults (env : venv) (p : prog) (fe : fenv) (args : list Z) (r : rt) : Prop :=
  exists mi b c k, p_validate p 0 = inl mi /\ start mi 0 args r = Next b c /\ run false fe p on_time k c = inl (Undef UBMem).

Definition ends (test : outcome + config -> bool) (env : venv) (entries args : list Z) (k : nat) : bool :=
  match p_validate (loaded env entries (natives_of env)) 0 with
  | inl mi => match start mi 0 args (fresh_rt env) with
              | Next _ c => test (run false zero_fe (loaded env entries (natives_of env)) on_time k c)
              | _ => false
              end
  | inr _ => false
  end.
Definition is_fault (x : outcome + config) : bool := match x with inl (Undef UBMem) => true | _ => false end.
Lemma ends_faults env entries args k : ends is_fault env entries args k = true ->
  faults env (loaded env entries (natives_of env)) zero_fe args (fresh_rt env).
Proof.
  unfold ends. destruct (p_validate _ 0) as [mi|] eqn:E1; [|discriminate].
  destruct (start mi 0 args (fresh_rt env)) as [b c| | |] eqn:E2; try discriminate.
  destruct (run false zero_fe _ on_time k c) as [[| | |u]|] eqn:E3; try discriminate. destruct u; try discriminate.
  intros _. exists mi, b, c, k. auto.
Qed.

Definition untyped (code : list Z) (mem_ dat : Z) : venv := mkVenv code false true true mem_ dat 1 None.

Lemma small_heap_dec env : forallb (fun k => match Interp_Model.decode (v_code env) (Z.of_nat k) with Some (HEAP n) => n <? 1073741824 | _ => true end)
  (seq 0 (length (v_code env))) = true -> small_heap env.
Proof.
  intros H pc n D. assert (B : 0 <= pc < Z.of_nat (length (v_code env))).
  { destruct (Z.lt_ge_cases pc 0) as [N|N]; [exfalso|destruct (Z.lt_ge_cases pc (Z.of_nat (length (v_code env)))) as [L|L]; [lia|exfalso]];
      unfold Interp_Model.decode, cell_at in D; [replace (pc <? 0) with true in D by lia|replace (pc <? 0) with false in D by lia; rewrite nth_overflow in D by lia]; discriminate. }
  rewrite forallb_forall in H. specialize (H (Z.to_nat pc)). rewrite Z2Nat.id in H by lia. rewrite D in H.
  assert (X : (n <? 1073741824) = true) by (apply H, in_seq; lia). lia.
Qed.

Ltac loaded_case := split; [apply loaded_verified; [small_env|vm_compute; reflexivity|vm_compute; reflexivity]|];
  try (split; [apply small_heap_dec; vm_compute; reflexivity|]);
  split; [apply loaded_host|]; split; [apply fresh_ready; [vm_compute; discriminate|vm_compute; discriminate|vm_compute; discriminate|vm_compute; discriminate|apply Forall_nil]|].

(* HEAP 0x7ffffffc; PUSH.C 1; GENARRAY.Z 1 *)
Definition huge_heap : venv := untyped [46; 171; 45; 2147483644; 39; 1; 163; 1; 44; 4; 172; 48] 65536 1024.
Lemma huge_heap_case : exists env p fe r, verified env p /\ host_ok env p fe /\ ready env [] r /\ faults env p fe [] r.
Proof.
  exists huge_heap, (loaded huge_heap [0] (natives_of huge_heap)), zero_fe, (fresh_rt huge_heap).
  split; [apply loaded_verified; [small_env|vm_compute; reflexivity|vm_compute; reflexivity]|].
  split; [apply loaded_host|]. split; [apply fresh_ready; [vm_compute; discriminate|vm_compute; discriminate|vm_compute; discriminate|vm_compute; discriminate|apply Forall_nil]|].
  apply (ends_faults _ _ _ 20). vm_compute. reflexivity.
Qed.

(* main: PUSH.C 0; CALL g; RETN.  g: ADDR.alt 4; CONST.pri -1000000; STOR.I; RETN *)
Definition forged_frame : venv := untyped [46; 39; 0; 49; 24; 48; 46; 14; 4; 11; -1000000; 23; 48] 65536 1024.
Lemma forged_frame_case : exists env p fe r, verified env p /\ small_heap env /\ host_ok env p fe /\ ready env [] r /\ faults env p fe [] r.
Proof.
  exists forged_frame, (loaded forged_frame [0; 24] (natives_of forged_frame)), zero_fe, (fresh_rt forged_frame).
  loaded_case. apply (ends_faults _ _ _ 20). vm_compute. reflexivity.
Qed.

(* CONST.pri 65531; INITARRAY.pri 0 0 0 2 7 *)
Definition odd_array : venv := untyped [46; 11; 65531; 169; 0; 0; 0; 2; 7; 48] 65536 1024.
Lemma odd_array_case : exists env p fe r, verified env p /\ small_heap env /\ host_ok env p fe /\ ready env [] r /\ faults env p fe [] r.
Proof.
  exists odd_array, (loaded odd_array [0] (natives_of odd_array)), zero_fe, (fresh_rt odd_array).
  loaded_case. apply (ends_faults _ _ _ 20). vm_compute. reflexivity.
Qed.

(* CVT.I64 60000 *)
Definition far_slot : venv := untyped [46; 194; 60000; 48] 65536 1024.
Lemma far_slot_case : exists env p fe r, verified env p /\ small_heap env /\ host_ok env p fe /\ ready env [] r /\ faults env p fe [] r.
Proof.
  exists far_slot, (loaded far_slot [0] (natives_of far_slot)), zero_fe, (fresh_rt far_slot).
  loaded_case. apply (ends_faults _ _ _ 20). vm_compute. reflexivity.
Qed.

(* STACK -16300; PUSH.C 1000000; PUSH.C 1; GENARRAY.Z 2, without static data *)
Definition low_array : venv := untyped [46; 44; -16300; 39; 1000000; 39; 1; 163; 2; 44; 16304; 48] 16384 0.
Lemma low_array_case : exists env p fe r, verified env p /\ small_heap env /\ host_ok env p fe /\ ready env [] r /\ faults env p fe [] r.
Proof.
  exists low_array, (loaded low_array [0] (natives_of low_array)), zero_fe, (fresh_rt low_array).
  loaded_case. apply (ends_faults _ _ _ 20). vm_compute. reflexivity.
Qed.

(* HEAP.SAVE twice; CONST.alt 1032; CONST.pri 65528; STOR.I; HEAP.RESTORE twice: the inner scope's record is overwritten. *)
Definition forged_scope : venv := untyped [46; 171; 171; 12; 1032; 11; 65528; 23; 172; 172; 48] 65536 1024.
Definition is_crossed (x : outcome + config) : bool := match x with inr c => sp (c_rt c) <? hp (c_rt c) | _ => false end.
Lemma ends_crossed env entries args k : ends is_crossed env entries args k = true ->
  exists mi b c c', p_validate (loaded env entries (natives_of env)) 0 = inl mi /\ start mi 0 args (fresh_rt env) = Next b c /\
    run false zero_fe (loaded env entries (natives_of env)) on_time k c = inr c' /\ sp (c_rt c') < hp (c_rt c').
Proof.
  unfold ends. destruct (p_validate _ 0) as [mi|] eqn:E1; [|discriminate].
  destruct (start mi 0 args (fresh_rt env)) as [b c| | |] eqn:E2; try discriminate.
  destruct (run false zero_fe _ on_time k c) as [|c'] eqn:E3; [discriminate|]. cbn [is_crossed]. intro X.
  exists mi, b, c, c'. split; [reflexivity|]. split; [exact E2|]. split; [exact E3|]. lia.
Qed.
Lemma forged_scope_case : exists env p fe r mi b c k c', verified env p /\ small_heap env /\ host_ok env p fe /\ ready env [] r /\
  p_validate p 0 = inl mi /\ start mi 0 [] r = Next b c /\ run false fe p on_time k c = inr c' /\ sp (c_rt c') < hp (c_rt c').
Proof.
  destruct (ends_crossed forged_scope [0] [] 7 ltac:(vm_compute; reflexivity)) as (mi & b & c & c' & E).
  exists forged_scope, (loaded forged_scope [0] (natives_of forged_scope)), zero_fe, (fresh_rt forged_scope), mi, b, c, 7%nat, c'.
  loaded_case. exact E.
Qed.

(* ---- A run that keeps to what is relied on ---- *)
Definition frame_eqb (f g : frame) : bool := (fr_at f =? fr_at g) && (fr_caller f =? fr_caller g) && (fr_args f =? fr_args g).
Definition relies_b (env : venv) (c : config) (fs : list frame) : bool :=
  match Interp_Model.decode (v_code env) (a_pc (c_cur c)) with
  | Some RETN => match fs with f :: _ => frame_eqb f (frame_of (c_rt c)) | [] => false end
  | Some HEAP_RESTORE => (data_size (c_rt c) <=? hp_scope (c_rt c)) && (hp_scope (c_rt c) <=? hp (c_rt c))
  | Some (GENARRAY _ _) => 64 <=? sp (c_rt c)
  | Some (INITARRAY _ _ _ _ _ _) => false
  | Some (CVT_I64 o) | Some (UN64 _ o) | Some (BIN64 _ o) | Some (STOR_S_C_I64 o _ _) | Some (STOR_S_PRI_I64 o) => v_typed env && (0 <=? o)
  | _ => true
  end.
Lemma relies_dec env c fs : relies_b env c fs = true -> relies env c fs.
Proof.
  unfold relies_b, relies. destruct (Interp_Model.decode (v_code env) (a_pc (c_cur c))) as [i|]; [|auto].
  assert (F : forall o (P : Prop), v_typed env && (0 <=? o) = true -> v_typed env = false \/ o < 0 -> P).
  { intros o P H [X|X]; [rewrite X in H; discriminate|]. destruct (v_typed env); [lia|discriminate]. }
  destruct i; auto; try discriminate; try (intros H; apply (F _ _ H); fail); intro H; try lia.
  destruct fs as [|[a1 a2 a3] fs]; [discriminate|]. unfold frame_eqb in H. unfold frame_of in *. cbn [fr_at fr_caller fr_args hd_error] in *.
  f_equal. f_equal; lia.
Qed.

Fixpoint walk (env : venv) (p : prog) (k : nat) (c : config) (fs : list frame) : option (config * list frame) :=
  match k with
  | O => Some (c, fs)
  | Datatypes.S k' => if relies_b env c fs then
      match step false zero_fe p on_time c with Next _ c' => walk env p k' c' (frames_after env c c' fs) | _ => None end
    else None
  end.
Lemma walk_monitored env p args r k : forall c fs c' fs', monitored env zero_fe p on_time args r c fs -> walk env p k c fs = Some (c', fs') ->
  monitored env zero_fe p on_time args r c' fs'.
Proof.
  induction k as [|k IH]; intros c fs c' fs' M; cbn [walk].
  - intro E. injection E as <- <-. exact M.
  - destruct (relies_b env c fs) eqn:RB; [|discriminate]. destruct (step false zero_fe p on_time c) as [b c1| | |] eqn:E; try discriminate.
    apply IH. eapply mon_step; [exact M|apply relies_dec; exact RB|exact E].
Qed.

Definition walked (test : config -> list frame -> outcome -> bool) (env : venv) (entries args : list Z) (k : nat) : bool :=
  match p_validate (loaded env entries (natives_of env)) 0 with
  | inl mi => match start mi 0 args (fresh_rt env) with
              | Next _ c => match walk env (loaded env entries (natives_of env)) k c [frame_of (c_rt c)] with
                            | Some (c', fs) => relies_b env c' fs && test c' fs (step false zero_fe (loaded env entries (natives_of env)) on_time c')
                            | None => false
                            end
              | _ => false
              end
  | inr _ => false
  end.
Lemma walked_monitored test env entries args k : walked test env entries args k = true ->
  exists c fs, monitored env zero_fe (loaded env entries (natives_of env)) on_time args (fresh_rt env) c fs /\ relies env c fs /\
    test c fs (step false zero_fe (loaded env entries (natives_of env)) on_time c) = true.
Proof.
  unfold walked. destruct (p_validate _ 0) as [mi|] eqn:E1; [|discriminate].
  destruct (start mi 0 args (fresh_rt env)) as [b c| | |] eqn:E2; try discriminate.
  destruct (walk env _ k c _) as [(c' & fs)|] eqn:E3; [|discriminate]. intro H. apply andb_prop in H. destruct H as (H1 & H2).
  exists c', fs. split; [|split; [apply relies_dec; exact H1|exact H2]].
  eapply walk_monitored; [|exact E3]. eapply mon_start; eassumption.
Qed.

(* main: PUSH.C 5; PUSH.C 1; CALL g; RETN
   g: HEAP.SAVE; LOAD.S.pri 12; JZER e; ADD.C -1; PUSH.pri; PUSH.C 1; CALL g; SYSREQ.N 0 0; e: HEAP.RESTORE; RETN *)
Definition recursion : venv :=
  untyped [46; 39; 5; 39; 1; 49; 32; 48; 46; 171; 3; 12; 53; 96; 87; -1; 36; 39; 1; 49; 32; 135; 0; 0; 172; 48] 65536 1024.
Definition in_frames (n : nat) (c : config) (fs : list frame) (x : outcome) : bool := Nat.eqb (length fs) n && match x with Next _ _ => true | _ => false end.
Definition returns (v : Z) (c : config) (fs : list frame) (x : outcome) : bool := match x with Done w _ => w =? v | _ => false end.
Lemma recursion_case : exists env p fe r, verified env p /\ small_heap env /\ host_ok env p fe /\ ready env [] r /\
  (exists c fs, monitored env fe p on_time [] r c fs /\ relies env c fs /\ length fs = 7%nat) /\
  exists c fs r', monitored env fe p on_time [] r c fs /\ relies env c fs /\ step false fe p on_time c = Done 7 r'.
Proof.
  exists recursion, (loaded recursion [0; 32] (natives_of recursion)), zero_fe, (fresh_rt recursion).
  loaded_case. split.
  - destruct (walked_monitored (in_frames 7) recursion [0; 32] [] 40 ltac:(vm_compute; reflexivity)) as (c & fs & M & RL & T).
    exists c, fs. split; [exact M|split; [exact RL|]]. unfold in_frames in T. apply andb_prop in T. apply Nat.eqb_eq, T.
  - destruct (walked_monitored (returns 7) recursion [0; 32] [] 58 ltac:(vm_compute; reflexivity)) as (c & fs & M & RL & T).
    unfold returns in T. destruct (step false zero_fe _ on_time c) as [|v r'| |] eqn:E; try discriminate.
    exists c, fs, r'. split; [exact M|split; [exact RL|]]. rewrite E. f_equal. lia.
Qed.
