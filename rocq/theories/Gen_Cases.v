(* A concrete machine and program for the examples of C28, and the cases in which the property fails. *)
From Verif Require Import Base Base_Proofs Rt_Model Rt_Spec Interp_Model Fold_Model Fold_Spec Fold_Proofs Gen_Model Gen_Spec Gen_Proofs Gen_Link.
From Verif Require Label_Model Label_Spec Label_Proofs.
From Coq Require Import ZifyBool Lia.
Ltac Zify.zify_post_hook ::= idtac.

(* ---- Checking histories ---- *)
Fixpoint ok_from (before h : list aop) : Prop :=
  match h with [] => True | o :: r => Label_Spec.allowed before o /\ ok_from (before ++ [o]) r end.
Lemma ok_from_all h : forall before pre o post, ok_from before h -> h = pre ++ o :: post -> Label_Spec.allowed (before ++ pre) o.
Proof.
  induction h as [|x h IH]; intros before pre o post A E; [destruct pre; discriminate|]. destruct A as [A B].
  destruct pre as [|y pre]; cbn [app] in E; injection E as -> E; [now rewrite app_nil_r|].
  specialize (IH _ pre o post B E). now rewrite <- app_assoc in IH.
Qed.
Lemma well_used_check h : ok_from [] h -> 4 * cells_of h <= Label_Model.INT_MAX / 2 -> well_used h.
Proof. intros A S. split; [|exact S]. intros before o after E. exact (ok_from_all h [] before o after A E). Qed.
Lemma closed_check h : forallb (fun l => match placed 0 h l with Some _ => true | None => false end) (refs h) = true -> closed h.
Proof.
  intros F l I E. rewrite forallb_forall in F. apply in_refs in I. specialize (F l I). rewrite E in F. discriminate.
Qed.
Definition code_of (h : list aop) : list Z :=
  match Label_Model.arun h Label_Model.fresh with Label_Model.Done s => Label_Model.code s | _ => [] end.
Lemma built_check h M : well_used h -> closed h -> p_code (m_prog M) = code_of h -> built h M.
Proof.
  intros W C E. destruct (Label_Proofs.patched h W) as (s & R & _). split; [exact W|]. split; [exact C|].
  exists s. split; [exact R|]. rewrite E. unfold code_of. now rewrite R.
Qed.

(* ---- int a, b, arr[3]; with locals x, y and an argument int &r that stands for arr[1] ---- *)
Definition the_scope : scope := mkScope
  (fun v => match v with
            | VGlobal 0 => Some (0%nat, 0) | VGlobal 1 => Some (1%nat, 0)
            | VLocal (-4) => Some (3%nat, 0) | VLocal (-8) => Some (4%nat, 0)
            | VRef 12 => Some (2%nat, 1)
            | _ => None end)
  (fun r => match r with AGlobal 2 => Some 2%nat | _ => None end)
  (fun o => match o with 2%nat => 3 | 0%nat | 1%nat | 3%nat | 4%nat => 1 | _ => 0 end).
Definition the_base (o : nat) : Z :=
  match o with 0%nat => 0 | 1%nat => 4 | 2%nat => 8 | 3%nat => 16388 | 4%nat => 16384 | _ => 0 end.
(* a = 0, b = 0, arr = {10, 20, 6}, x = 17, y = 5 *)
Definition the_mem : Z -> Z :=
  store32 (store32 (store32 (store32 (store32 (store32 (fun _ => 0) 8 10) 12 20) 16 6) 16388 17) 16384 5) 16404 12.
Definition the_store (c : loc) : Z := load32 the_mem (adr the_base c).
Definition the_rt : rt := mkRt the_mem 16416 32 32 16384 16412 16392 0 false false.
Definition the_machine (code : list Z) : machine :=
  mkMachine the_rt (mkMeth false []) [] (mkProg code (fun _ => None) (fun _ => inr INVALID_ADDRESS)) ieee_host (fun _ => false).
Definition declarations : list aop := [Label_Model.BindTo 0 0; Label_Model.BindTo 1 4; Label_Model.BindTo 2 8].
Definition the_lab (g : nat) : nat := g.

Lemma the_live o i : live the_scope (o, i) ->
  (o = 2%nat /\ (i = 0 \/ i = 1 \/ i = 2)) \/ ((o = 0 \/ o = 1 \/ o = 3 \/ o = 4)%nat /\ i = 0).
Proof.
  unfold live. cbn [fst snd]. do 5 (destruct o as [|o]; [cbn [olen the_scope]; lia|]). cbn [olen the_scope]. lia.
Qed.
Lemma the_vars v x : vloc the_scope v = Some x ->
  (v = VGlobal 0 /\ x = (0%nat, 0)) \/ (v = VGlobal 1 /\ x = (1%nat, 0)) \/ (v = VLocal (-4) /\ x = (3%nat, 0)) \/
  (v = VLocal (-8) /\ x = (4%nat, 0)) \/ (v = VRef 12 /\ x = (2%nat, 1)).
Proof.
  intros H. cbn [vloc the_scope] in H. destruct v as [s|[|[|g]]|s]; try discriminate H.
  - destruct s as [|p|p]; try discriminate H. do 4 (try (destruct p as [p|p|]; try discriminate H)); injection H as <-; tauto.
  - injection H as <-; tauto.
  - injection H as <-; tauto.
  - destruct s as [|p|p]; try discriminate H. do 4 (try (destruct p as [p|p|]; try discriminate H)); injection H as <-; tauto.
Qed.
Lemma the_arrays r o : aobj the_scope r = Some o -> r = AGlobal 2 /\ o = 2%nat.
Proof. intros H. cbn [aobj the_scope] in H. destruct r as [[|[|[|g]]]|s]; try discriminate H. now injection H. Qed.
Lemma the_objs o : 0 < olen the_scope o -> (o = 0 \/ o = 1 \/ o = 2 \/ o = 3 \/ o = 4)%nat.
Proof. do 5 (destruct o as [|o]; [lia|]). cbn [olen the_scope]. lia. Qed.
Lemma the_placed code wh ga : wh 0%nat = 0 -> wh 1%nat = 4 -> wh 2%nat = 8 -> ga 0%nat = 0 -> ga 1%nat = 4 ->
  placed_data (the_machine code) the_scope the_base wh the_lab ga.
Proof.
  intros W0 W1 W2 G0 G1. constructor.
  - constructor; cbn; unfold two31; lia.
  - constructor; cbn; unfold is_i32, two31; lia.
  - cbn; lia.
  - cbn; lia.
  - intros o O. apply the_objs in O. unfold reachable. cbn [m_rt the_machine the_rt stp hp sp].
    destruct O as [-> |[-> |[-> |[-> | ->]]]]; cbn [the_base olen the_scope]; lia.
  - intros o o' N O O'. apply the_objs in O. apply the_objs in O'. unfold apart.
    destruct O as [-> |[-> |[-> |[-> | ->]]]]; destruct O' as [-> |[-> |[-> |[-> | ->]]]]; try contradiction; cbn [the_base olen the_scope]; lia.
  - intros s x H. apply the_vars in H. unfold live, adr, is_i32, two31, slot_ok.
    destruct H as [[H ->]|[[H ->]|[[H ->]|[[H ->]|[H ->]]]]]; try discriminate H; injection H as ->; cbn [fst snd the_base olen the_scope m_meth the_machine typed];
      (split; [discriminate|]); (split; [lia|]); (split; [reflexivity|lia]).
  - intros g x H. apply the_vars in H. unfold live, adr, the_lab.
    destruct H as [[H ->]|[[H ->]|[[H ->]|[[H ->]|[H ->]]]]]; try discriminate H; injection H as ->; cbn [fst snd the_base olen the_scope]; lia.
  - intros s x H. apply the_vars in H. unfold live.
    destruct H as [[H ->]|[[H ->]|[[H ->]|[[H ->]|[H ->]]]]]; try discriminate H; cbn [fst snd olen the_scope]; lia.
  - intros g o H. apply the_arrays in H as [H ->]. injection H as ->. cbn [the_base olen the_scope]. unfold the_lab. lia.
  - intros s o H. apply the_arrays in H as [H ->]. discriminate H.
  - intros s a [(x & H & ->)|(o & H & ->)]; [|apply the_arrays in H as [H _]; discriminate H].
    apply the_vars in H. destruct H as [[H ->]|[[H ->]|[[H ->]|[[H ->]|[H ->]]]]]; try discriminate H. injection H as ->.
    split; [intros X; discriminate X|]. split; [unfold is_i32, two31; lia|].
    assert (slot_adr (the_machine code) 12 = 16404) as -> by reflexivity.
    split; [unfold reachable; cbn [m_rt the_machine the_rt stp hp sp]; lia|]. intros o O. apply the_objs in O. unfold apart.
    destruct O as [-> |[-> |[-> |[-> | ->]]]]; cbn [the_base olen the_scope]; lia.
Qed.
Lemma the_holds code : holds (the_machine code) the_scope the_base the_store the_mem.
Proof.
  split; [reflexivity|]. intros s a [(x & H & ->)|(o & H & ->)]; [|apply the_arrays in H as [H _]; discriminate H].
  apply the_vars in H. destruct H as [[H ->]|[[H ->]|[[H ->]|[[H ->]|[H ->]]]]]; try discriminate H. injection H as ->. reflexivity.
Qed.

(* x = arr[b += 2] < 7 <= x && y-- > 0 ? (r += x) / y : -1 *)
Definition X := LVar (VLocal (-4)). Definition Y := LVar (VLocal (-8)). Definition R := LVar (VRef 12). Definition B := LVar (VGlobal 1).
Definition the_expr : expr :=
  Asg X (Tern (Log LAnd (Chain (Rv (LCell (AGlobal 2) 3 (AsgOp B BAdd (Num 2)))) BLt (Num 7) (CMore BLe (Rv X) CEnd)) (Bin BGt (Inc Y false true) (Num 0)))
    (Bin BDiv (AsgOp R BAdd (Rv X)) (Rv Y)) (Num (-1))).
Definition before_code : list aop := declarations ++ [Emit [120; 0]].
Definition the_code : list aop := gen the_lab (fun g => address_now before_code (the_lab g)) Value the_expr 3.
Definition the_history : list aop := before_code ++ the_code ++ [Emit [48]].
(* The code is as [gen] makes it, is complete, and its value is (20 + 17) / 4. *)
Lemma the_built : built the_history (the_machine (code_of the_history)).
Proof.
  apply built_check; [|apply closed_check; vm_compute; reflexivity|reflexivity].
  apply well_used_check; [vm_compute; repeat split; discriminate|vm_compute; discriminate].
Qed.
Lemma the_accepted : accepted the_expr.
Proof. cbn. unfold is_i32, two31. repeat split; lia. Qed.
Definition value_in (r : ev Z) : option Z := match r with Val v _ => Some v | _ => None end.
Definition cell_in (r : ev Z) (x : loc) : option Z := match r with Val _ st => Some (st x) | _ => None end.
Lemma the_value : let r := eval the_scope the_expr the_store in
  value_in r = Some 9 /\ cell_in r (3%nat, 0) = Some 9 /\ cell_in r (2%nat, 1) = Some 37 /\ cell_in r (1%nat, 0) = Some 2 /\ cell_in r (4%nat, 0) = Some 4.
Proof. vm_compute. repeat split. Qed.
Lemma the_hypotheses : let M := the_machine (code_of the_history) in
  built the_history M /\ 0 < cells_of [Emit [48]] /\
  placed_data M the_scope the_base (resolve the_history) the_lab (fun g => address_now before_code (the_lab g)) /\
  (forall c, m_tmo M c = false) /\ accepted the_expr /\ holds M the_scope the_base the_store the_mem /\
  hp (m_rt M) + 4 * depth the_expr < 16384 <= sp (m_rt M).
Proof.
  cbv zeta. split; [exact the_built|]. split; [reflexivity|]. split; [apply the_placed; vm_compute; reflexivity|].
  split; [reflexivity|]. split; [exact the_accepted|]. split; [apply the_holds|]. vm_compute. split; [reflexivity|discriminate].
Qed.

(* ---- b = 5; with int a; int b; declared after the function ---- *)
Definition later_code : list aop := gen the_lab (fun g => address_now [] (the_lab g)) Value (Asg B (Num 5)) 3.
Definition later_history : list aop := [] ++ later_code ++ (Emit [48] :: declarations).
Lemma later_global : let M := the_machine (code_of later_history) in
  exists m' a', built later_history M /\
    placed_data M the_scope the_base (resolve later_history) the_lab (fun g => resolve later_history (the_lab g)) /\
    holds M the_scope the_base the_store the_mem /\ accepted (Asg B (Num 5)) /\
    eval the_scope (Asg B (Num 5)) the_store = Val 5 (update the_store (1%nat, 0) 5) /\
    gets M (at_ M the_mem 16384 0 0 0) (at_ M m' 16384 (cells_of later_code) 5 a') /\
    load32 m' (adr the_base (0%nat, 0)) = 5 /\ load32 m' (adr the_base (1%nat, 0)) = 0.
Proof.
  cbv zeta. exists (store32 the_mem 0 5), 0.
  split. { apply built_check; [|apply closed_check; vm_compute; reflexivity|reflexivity].
    apply well_used_check; [vm_compute; repeat split; discriminate|vm_compute; discriminate]. }
  split; [apply the_placed; vm_compute; reflexivity|]. split; [apply the_holds|].
  split; [cbn; unfold is_i32, two31; repeat split; lia|]. split; [reflexivity|].
  split; [|split; vm_compute; reflexivity]. exists 2%nat. reflexivity.
Qed.

(* ---- if (!f) for a float f = -0.0: EmitUnaryExprTest (code-generator.cpp:642-653) drops the '!' and tests the bits,
   whatever the type of f (int64 apart), although !f as a value goes through TEST_F32 (605-634) ---- *)
Definition not_test : list aop := gen the_lab (fun g => address_now [] (the_lab g)) (Test true 3) (Un UNot (Rv X)) 4.
Definition not_history : list aop := not_test ++ [Emit [48]; Bind 3; Emit [48]].
Definition minus_zero_mem : Z -> Z := store32 the_mem 16388 (- 2 ^ 31).
Lemma float_not_test : let M := the_machine (code_of not_history) in
  load32 minus_zero_mem (adr the_base (3%nat, 0)) = - 2 ^ 31 /\ f32_scaled (- 2 ^ 31) = 0 /\ ieee (m_fe M) /\
  (forall strict nt mi s, exists s', does strict (m_fe M) nt mi (const_pri (- 2 ^ 31) ++ un_code true UNot) s = Ok tt s' /\ pri s' = 1) /\
  resolve not_history 3 = 4 * 5 /\
  gets M (at_ M minus_zero_mem 16384 0 0 0) (at_ M minus_zero_mem 16384 4 (- 2 ^ 31) 0).
Proof.
  cbv zeta. split; [vm_compute; reflexivity|]. split; [reflexivity|]. split; [exact ieee_exists|].
  split; [intros strict nt mi s; exact (proj2 (float_not strict ieee_host nt mi s ieee_exists))|].
  split; [vm_compute; reflexivity|]. exists 2%nat. reflexivity.
Qed.
