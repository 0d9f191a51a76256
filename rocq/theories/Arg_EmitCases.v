(* A call that meets the hypotheses: f(x, &x, b += 2, &b, &r, &arr[2], arr, 7) in the program of Gen_Cases, f being the first function and
   the last parameter being "...". *)
From Coq Require Import ZifyBool Lia.
From Verif Require Import Base Rt_Model Rt_Spec Interp_Model Fold_Model Gen_Model Gen_Spec Gen_Proofs Gen_Link Gen_Cases Arg_Emit Arg_EmitSpec.
From Verif Require Label_Model Label_Spec Arg_EmitProofs.
Ltac Zify.zify_post_hook ::= idtac.

Definition the_callee : meth := mkMeth true [-4; -8].
Definition call_machine (code : list Z) : machine :=
  mkMachine the_rt (mkMeth false []) [] (mkProg code (fun _ => None) (fun o => if o =? 0 then inl the_callee else inr INVALID_ADDRESS)) (m_fe (the_machine [])) (fun _ => false).
Definition the_args : list arg := [ByValue (Rv X); ByRef X; ByValue (AsgOp B BAdd (Num 2)); ByRef B; ByRef R;
  ByRef (LCell (AGlobal 2) 3 (Num 2)); Whole (AGlobal 2); Temp (Num 7) (-8)].
Definition the_passed : list passed := [PVal 17; PCell (3%nat, 0); PVal 2; PCell (1%nat, 0); PCell (2%nat, 1); PCell (2%nat, 2); PCell (2%nat, 0); PCell (4%nat, 0)].
Definition the_words : list Z := [17; 16388; 2; 4; 12; 16; 8; 16384].
Definition before_call : list aop := declarations ++ [Bind 3; Emit [46]; Emit [48]; Emit [46]].
Definition call_ga (g : nat) : Z := address_now before_call (the_lab g).
Definition call_history : list aop := before_call ++ call_code the_lab call_ga the_args 4 3 ++ [Emit [48]].

Lemma call_placed code wh ga : wh 0%nat = 0 -> wh 1%nat = 4 -> wh 2%nat = 8 -> ga 0%nat = 0 -> ga 1%nat = 4 ->
  placed_data (call_machine code) the_scope the_base wh the_lab ga.
Proof.
  intros A1 A2 A3 A4 A5. pose proof (the_placed code wh ga A1 A2 A3 A4 A5) as []. constructor; assumption.
Qed.
Lemma call_hypotheses : let M := call_machine (code_of call_history) in
  built call_history M /\ 0 < cells_of [Emit [48]] /\
  placed_data M the_scope the_base (resolve call_history) the_lab call_ga /\
  (forall c, m_tmo M c = false) /\ (forall e, In e the_args -> accepted_arg e) /\ holds M the_scope the_base the_store the_mem /\
  hp (m_rt M) + 4 * push_depth the_args < 16384 <= sp (m_rt M) /\
  resolve call_history 3 = 4 * 0 /\ 0 <= 0 < Z.of_nat (length (p_code (m_prog M))) /\ p_validate (m_prog M) (4 * 0) = inl the_callee /\
  StackSizeForLocalSlots the_callee <= 0 /\
  hp (m_rt M) + 4 * Z.of_nat (length the_args) + 80 - StackSizeForLocalSlots the_callee <= 16384.
Proof.
  cbv zeta. split.
  { apply built_check; [|apply closed_check; vm_compute; reflexivity|reflexivity].
    apply well_used_check; [vm_compute; repeat split; discriminate|vm_compute; discriminate]. }
  split; [reflexivity|]. split; [apply call_placed; vm_compute; reflexivity|]. split; [reflexivity|].
  split. { intros e [<- | [<- | [<- | [<- | [<- | [<- | [<- | [<- | []]]]]]]]]; cbn; unfold is_i32, two31; repeat split; lia. }
  split; [exact (the_holds (code_of call_history))|].
  split; [vm_compute; split; [reflexivity|discriminate]|]. split; [vm_compute; reflexivity|]. split; [vm_compute; split; [discriminate|reflexivity]|].
  split; [reflexivity|]. split; vm_compute; discriminate.
Qed.
(* The last argument is evaluated first. *)
Lemma call_values : match eval_args the_scope the_args the_store with Val vs st => vs = the_passed /\ st (1%nat, 0) = 2 /\ st (4%nat, 0) = 7 | _ => False end.
Proof. vm_compute. repeat split. Qed.
Lemma call_words : map (word the_base) the_passed = the_words.
Proof. reflexivity. Qed.

(* A function that has not done anything yet can return. *)
Lemma call_returns : let M := call_machine (code_of call_history) in data_size (m_rt M) <= hp (m_rt M) /\
  exists r, called M the_callee 16384 the_words r /\ in_call M r r /\ cell_at (p_code (m_prog M)) 1 = 48.
Proof.
  cbv zeta. split; [vm_compute; discriminate|].
  destruct call_hypotheses as (H1 & H2 & H3 & H4 & H5 & H6 & H7 & H8 & H9 & H10 & H11 & H12).
  pose proof (Arg_EmitProofs.call_correct _ _ _ _ _ _ _ _ _ _ _ _ _ _ _ _ 0 0 H1 eq_refl H2 H3 H4 H5 H6 H7 H8 H9 H10 H11 H12) as X.
  pose proof call_values as V. destruct (eval_args the_scope the_args the_store) as [vs st| |]; [|contradiction V|contradiction V].
  destruct V as (-> & _). destruct X as (r & p' & a' & _ & C & _). rewrite call_words in C. exists r. split; [exact C|]. split; [|vm_compute; reflexivity].
  constructor; [constructor; reflexivity|reflexivity|apply Z.le_refl|intros x _; reflexivity|intros x _; reflexivity].
Qed.

(* native(x, &x, b += 2, &b, &r, &arr[2], arr, 7), number 5, which gives its third argument *)
Definition the_host : RM Z := fun s => Ok (load32 (mem s) (sp s + 12)) s.
Definition native_machine (code : list Z) : machine :=
  mkMachine the_rt (mkMeth false []) [] (mkProg code (fun i => if i =? 5 then Some (mkNative (Some the_host) None) else None)
    (fun _ => inr INVALID_ADDRESS)) (m_fe (the_machine [])) (fun _ => false).
Definition before_native : list aop := declarations ++ [Label_Model.BindTo 3 5; Emit [46]].
Definition native_ga (g : nat) : Z := address_now before_native (the_lab g).
Definition native_history : list aop := before_native ++ native_code the_lab native_ga the_args 4 3 ++ [Emit [48]].
Lemma native_placed code wh ga : wh 0%nat = 0 -> wh 1%nat = 4 -> wh 2%nat = 8 -> ga 0%nat = 0 -> ga 1%nat = 4 ->
  placed_data (native_machine code) the_scope the_base wh the_lab ga.
Proof.
  intros A1 A2 A3 A4 A5. pose proof (the_placed code wh ga A1 A2 A3 A4 A5) as []. constructor; assumption.
Qed.
Lemma native_hypotheses : let M := native_machine (code_of native_history) in
  built native_history M /\ 0 < cells_of [Emit [48]] /\
  placed_data M the_scope the_base (resolve native_history) the_lab native_ga /\
  (forall c, m_tmo M c = false) /\ (forall e, In e the_args -> accepted_arg e) /\ holds M the_scope the_base the_store the_mem /\
  hp (m_rt M) + 4 * push_depth the_args < 16384 <= sp (m_rt M) /\ hp (m_rt M) + 4 * Z.of_nat (length the_args) + 4 < 16384 /\
  is_i32 (resolve native_history 3) /\
  p_natives (m_prog M) (resolve native_history 3) = Some (mkNative (Some the_host) None).
Proof.
  cbv zeta. split.
  { apply built_check; [|apply closed_check; vm_compute; reflexivity|reflexivity].
    apply well_used_check; [vm_compute; repeat split; discriminate|vm_compute; discriminate]. }
  split; [reflexivity|]. split.
  { apply native_placed; vm_compute; reflexivity. }
  split; [reflexivity|].
  split. { intros e [<- | [<- | [<- | [<- | [<- | [<- | [<- | [<- | []]]]]]]]]; cbn; unfold is_i32, two31; repeat split; lia. }
  split; [exact (the_holds (code_of native_history))|].
  split; [vm_compute; split; [reflexivity|discriminate]|]. split; [vm_compute; reflexivity|].
  assert (R : resolve native_history 3 = 5) by (vm_compute; reflexivity). rewrite R.
  split; [unfold is_i32, two31; lia|reflexivity].
Qed.
