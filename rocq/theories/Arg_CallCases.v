(* A whole call: f(b += 2, &x, arr) in the program of Gen_Cases, f being
     int f(int n, int &r, int v[3]) { int i = 0; while (i < n) { r += v[2]; i++; } a = r; return i * r + n; } *)
From Coq Require Import ZifyBool Lia.
From Verif Require Import Base Rt_Model Rt_Spec Interp_Model Fold_Model Gen_Model Gen_Spec Gen_Proofs Gen_Link Gen_Cases Stm_Model Stm_Spec Arg_Emit Arg_EmitSpec.
From Verif Require Label_Model Label_Spec.
Ltac Zify.zify_post_hook ::= idtac.

Definition f_meth : meth := mkMeth true [-4].
Definition f_scope : scope := mkScope
  (fun v => match v with
            | VGlobal 0 => Some (0%nat, 0) | VLocal (-1) => Some (1%nat, 0) | VLocal 0 => Some (2%nat, 0) | VRef (-2) => Some (3%nat, 0)
            | _ => None end)
  (fun r => match r with ALocal (-3) => Some 4%nat | _ => None end)
  (fun o => match o with 4%nat => 3 | 0%nat | 1%nat | 2%nat | 3%nat => 1 | _ => 0 end).
Definition f_base (o : nat) : Z :=
  match o with 0%nat => 0 | 1%nat => 16372 | 2%nat => 16356 | 3%nat => 16388 | 4%nat => 8 | _ => 0 end.
Definition f_body : stmt :=
  let n := LVar (VLocal (-1)) in let i := LVar (VLocal 0) in let r := LVar (VRef (-2)) in
  SBlock (SCons (SDecl 0 None)
         (SCons (SWhile (Bin BLt (Rv i) (Rv n))
                   (SBlock (SCons (SExpr (AsgOp r BAdd (Rv (LCell (ALocal (-3)) 3 (Num 2))))) (SCons (SExpr (Inc i true false)) SNil))))
         (SCons (SExpr (Asg (LVar (VGlobal 0)) (Rv r)))
         (SCons (SReturn (Some (Bin BAdd (Bin BMul (Rv i) (Rv r)) (Rv n)))) SNil)))).
Definition f_args : list arg := [ByValue (AsgOp B BAdd (Num 2)); ByRef X; Whole (AGlobal 2)].
Definition f_before : list aop := declarations ++ [Bind 3].
Definition f_ga (g : nat) : Z := address_now f_before (the_lab g).
Definition f_code : list aop := gfun the_lab f_ga f_body 4.
Definition main_before : list aop := f_before ++ f_code ++ [Emit [46]].
Definition main_ga (g : nat) : Z := address_now main_before (the_lab g).
Definition main_code : list aop := call_code the_lab main_ga f_args 30 3.
Definition whole_history : list aop := main_before ++ main_code ++ [Emit [48]].
Definition whole_machine : machine :=
  mkMachine the_rt (mkMeth false []) [] (mkProg (code_of whole_history) (fun _ => None) (fun o => if o =? 0 then inl f_meth else inr INVALID_ADDRESS))
    (m_fe (the_machine [])) (fun _ => false).
Definition f_words : list Z := [2; 16388; 8].
(* What f starts with. *)
Definition f_store (x : loc) : Z := match fst x with 1%nat => 2 | 3%nat => 17 | 4%nat => nth (Z.to_nat (snd x)) [10; 20; 6] 0 | _ => 0 end.

Lemma f_objs o : 0 < olen f_scope o -> (o = 0 \/ o = 1 \/ o = 2 \/ o = 3 \/ o = 4)%nat.
Proof. do 5 (destruct o as [|o]; [lia|]). cbn [olen f_scope]. lia. Qed.
Lemma f_vars v x : vloc f_scope v = Some x ->
  (v = VGlobal 0 /\ x = (0%nat, 0)) \/ (v = VLocal (-1) /\ x = (1%nat, 0)) \/ (v = VLocal 0 /\ x = (2%nat, 0)) \/ (v = VRef (-2) /\ x = (3%nat, 0)).
Proof.
  intros H. cbn [vloc f_scope] in H. destruct v as [s|[|g]|s]; try discriminate H.
  - destruct s as [|p|p]; try discriminate H; [injection H as <-; tauto|]. destruct p as [p|p|]; try discriminate H. injection H as <-; tauto.
  - injection H as <-; tauto.
  - destruct s as [|p|p]; try discriminate H. do 2 (try (destruct p as [p|p|]; try discriminate H)). injection H as <-; tauto.
Qed.
Lemma f_arrays r o : aobj f_scope r = Some o -> r = ALocal (-3) /\ o = 4%nat.
Proof.
  intros H. cbn [aobj f_scope] in H. destruct r as [g|s]; try discriminate H. destruct s as [|p|p]; try discriminate H.
  do 2 (try (destruct p as [p|p|]; try discriminate H)). now injection H.
Qed.
Lemma f_pointers s x : pointer f_scope f_base s x -> (s = -2 /\ x = 16388) \/ (s = -3 /\ x = 8).
Proof.
  intros [(y & H & ->)|(o & H & ->)].
  - apply f_vars in H as [[H ->]|[[H ->]|[[H ->]|[H ->]]]]; try discriminate H. injection H as ->. left. split; reflexivity.
  - apply f_arrays in H as [H ->]. injection H as ->. right. split; reflexivity.
Qed.
Lemma f_placed wh : wh 0%nat = 0 -> f_ga 0%nat = 0 -> placed_data (callee_machine whole_machine f_meth 16384 3) f_scope f_base wh the_lab f_ga.
Proof.
  intros W0 G0. set (N := callee_machine whole_machine f_meth 16384 3).
  assert (S0 : slot_adr N 0 = 16356) by reflexivity. assert (S1 : slot_adr N (-1) = 16372) by reflexivity.
  assert (S2 : slot_adr N (-2) = 16376) by reflexivity. assert (S3 : slot_adr N (-3) = 16380) by reflexivity.
  assert (HN : hp (m_rt N) = 36) by reflexivity. assert (PN : sp (m_rt N) = 16356) by reflexivity. assert (TN : stp (m_rt N) = 16412) by reflexivity.
  constructor.
  - constructor; cbn; unfold two31; lia.
  - constructor; cbn; unfold is_i32, two31; lia.
  - lia.
  - lia.
  - intros o O. apply f_objs in O. unfold reachable. destruct O as [-> |[-> |[-> |[-> | ->]]]]; cbn [f_base olen f_scope]; lia.
  - intros o o' E O O'. apply f_objs in O. apply f_objs in O'. unfold apart.
    destruct O as [-> |[-> |[-> |[-> | ->]]]]; destruct O' as [-> |[-> |[-> |[-> | ->]]]]; try contradiction; cbn [f_base olen f_scope]; lia.
  - intros s x H. apply f_vars in H. unfold live, adr, is_i32, two31, slot_ok.
    destruct H as [[H ->]|[[H ->]|[[H ->]|[H ->]]]]; try discriminate H; injection H as ->; cbn [fst snd f_base olen f_scope];
      (split; [intros _; reflexivity|]); (split; [lia|]); (split; [assumption|lia]).
  - intros g x H. apply f_vars in H. unfold live, adr, the_lab.
    destruct H as [[H ->]|[[H ->]|[[H ->]|[H ->]]]]; try discriminate H; injection H as ->; cbn [fst snd f_base olen f_scope]; lia.
  - intros s x H. apply f_vars in H. unfold live.
    destruct H as [[H ->]|[[H ->]|[[H ->]|[H ->]]]]; try discriminate H; cbn [fst snd olen f_scope]; lia.
  - intros g o H. apply f_arrays in H as [H ->]. discriminate H.
  - intros s o H. apply f_arrays in H as [H ->]. cbn [olen f_scope]. lia.
  - intros s a H. apply f_pointers in H. unfold slot_ok, is_i32, two31, reachable, apart.
    destruct H as [[-> ->]|[-> ->]]; rewrite ?S2, ?S3; (split; [intros _; reflexivity|]); (split; [lia|]); (split; [lia|]);
      intros o O; apply f_objs in O; destruct O as [-> |[-> |[-> |[-> | ->]]]]; cbn [f_base olen f_scope]; lia.
Qed.
Lemma whole_placed wh ga : wh 0%nat = 0 -> wh 1%nat = 4 -> wh 2%nat = 8 -> ga 0%nat = 0 -> ga 1%nat = 4 ->
  placed_data whole_machine the_scope the_base wh the_lab ga.
Proof.
  intros A1 A2 A3 A4 A5. pose proof (the_placed (code_of whole_history) wh ga A1 A2 A3 A4 A5) as []. constructor; assumption.
Qed.
Lemma f_accepted : accepted_s false f_body.
Proof. cbn. unfold is_i32, two31. repeat first [exact Logic.I|reflexivity|lia|split]. Qed.

Lemma whole_hypotheses : let M := whole_machine in let M' := callee_machine M f_meth 16384 (length f_args) in
  built whole_history M /\ 0 < cells_of [Emit [48]] /\
  placed_data M the_scope the_base (resolve whole_history) the_lab main_ga /\
  (forall c, m_tmo M c = false) /\ (forall e, In e f_args -> accepted_arg e) /\ holds M the_scope the_base the_store the_mem /\
  hp (m_rt M) + 4 * push_depth f_args < 16384 <= sp (m_rt M) /\ data_size (m_rt M) <= hp (m_rt M) /\
  whole_history = f_before ++ gfun the_lab f_ga f_body 4 ++ ([Emit [46]] ++ main_code ++ [Emit [48]]) /\
  resolve whole_history 3 = 4 * cells_of f_before /\ p_validate (m_prog M) (4 * cells_of f_before) = inl f_meth /\
  typed f_meth = true /\ StackSizeForLocalSlots f_meth <= 0 /\
  hp (m_rt M) + 4 * Z.of_nat (length f_args) + 80 - StackSizeForLocalSlots f_meth <= 16384 /\
  placed_data M' f_scope f_base (resolve whole_history) the_lab f_ga /\ accepted_s false f_body /\
  hp (m_rt M') + 4 * sdepth f_body < sp (m_rt M').
Proof.
  cbv zeta. split.
  { apply built_check; [|apply closed_check; vm_compute; reflexivity|reflexivity].
    apply well_used_check; [vm_compute; repeat split; discriminate|vm_compute; discriminate]. }
  split; [reflexivity|]. split; [apply whole_placed; vm_compute; reflexivity|]. split; [reflexivity|].
  split. { intros e [<- | [<- | [<- | []]]]; cbn; unfold is_i32, two31; repeat split; lia. }
  split. { pose proof (the_holds (code_of whole_history)) as [A1 A2]. split; assumption. }
  split; [vm_compute; split; [reflexivity|discriminate]|]. split; [vm_compute; discriminate|].
  split; [unfold whole_history, main_before, f_code; now rewrite <- !app_assoc|]. split; [vm_compute; reflexivity|]. split; [reflexivity|].
  split; [reflexivity|]. split; [vm_compute; discriminate|]. split; [vm_compute; discriminate|].
  split; [apply f_placed; vm_compute; reflexivity|]. split; [exact f_accepted|]. vm_compute. reflexivity.
Qed.
Lemma f_view : own_view whole_machine f_meth 16384 f_words f_scope f_base.
Proof.
  constructor.
  - intros o O. apply f_objs in O. unfold apart. cbn [length f_words]. destruct O as [-> |[-> |[-> |[-> | ->]]]]; cbn [f_base olen f_scope]; lia.
  - intros o O. apply f_objs in O. unfold apart. cbn [whole_machine m_rt the_rt hp]. destruct O as [-> |[-> |[-> |[-> | ->]]]]; cbn [f_base olen f_scope]; lia.
  - intros s x H. apply f_pointers in H as [[-> ->]|[-> ->]]; [exists 1%nat|exists 2%nat]; split; reflexivity.
Qed.
(* The arguments, and b after they are evaluated. *)
Lemma f_values : match eval_args the_scope f_args the_store with
  | Val vs st => map (word the_base) vs = f_words /\ st (1%nat, 0) = 2 /\ call_starts the_scope the_base st f_scope f_base 16384 f_words f_store
  | _ => False end.
Proof.
  assert (E : exists vs st, eval_args the_scope f_args the_store = Val vs st /\ map (word the_base) vs = f_words /\
     (st (0%nat, 0), st (1%nat, 0), (st (2%nat, 0), st (2%nat, 1), st (2%nat, 2)), st (3%nat, 0), st (4%nat, 0)) = (0, 2, (10, 20, 6), 17, 5)).
  { eexists. eexists. split; [reflexivity|]. split; [reflexivity|]. vm_compute. reflexivity. }
  destruct E as (vs & st & -> & -> & V). injection V as V0 V1 V2 V3 V4 V5 V6.
  split; [reflexivity|]. split; [exact V1|]. split.
  - intros [o i] [o' i'] [L1 L2] L' E. cbn [fst snd] in L1, L2. apply the_live in L'. unfold adr in E. cbn [fst snd] in E.
    assert (O : 0 < olen f_scope o) by lia. apply f_objs in O.
    destruct O as [-> |[-> |[-> |[-> | ->]]]]; cbn [olen f_scope f_base] in *;
      destruct L' as [[-> [-> |[-> | ->]]]|[[-> |[-> |[-> | ->]]] ->]]; cbn [the_base] in E; try (exfalso; lia);
      [assert (i = 0) as -> by lia|assert (i = 0) as -> by lia|assert (i = 0) as -> by lia|assert (i = 1) as -> by lia|assert (i = 2) as -> by lia]; symmetry; assumption.
  - intros [o i] j v [L1 L2] Nv E. cbn [fst snd] in L1, L2. unfold adr in E. cbn [fst snd] in E.
    assert (O : 0 < olen f_scope o) by lia. apply f_objs in O.
    do 3 (destruct j as [|j]; [cbn in Nv; injection Nv as <-; cbn [length f_words] in E;
      destruct O as [-> |[-> |[-> |[-> | ->]]]]; cbn [olen f_scope f_base] in *; try (exfalso; lia); reflexivity|]).
    destruct j; discriminate Nv.
Qed.
(* It returns 2 * 29 + 2, leaving 29 in the variable r stands for and in a. *)
Lemma f_returns : match execs_body f_scope 20 f_body f_store with
  | Fin (Ret v) st => (v, st (3%nat, 0), st (0%nat, 0)) = (60, 29, 29) | _ => False end.
Proof. vm_compute. reflexivity. Qed.
