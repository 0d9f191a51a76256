(* A concrete function for the examples of C29. *)
From Verif Require Import Base Base_Proofs Rt_Model Rt_Spec Interp_Model Fold_Model Fold_Spec Gen_Model Gen_Spec Gen_Proofs Gen_Link Gen_Cases Stm_Model Stm_Spec.
From Verif Require Label_Model Label_Spec Label_Proofs.
From Coq Require Import ZifyBool Lia.
Ltac Zify.zify_post_hook ::= idtac.

(* int f(int &r) {
     for (int x = 0; x < 10; x++) {
       if (x == 3) continue;
       switch (x) { case 5, 0: b++; case 7: break; default: b += x * 10; }
     }
     do { y--; if (y == 2) return b; } while (y > 0);
     while (true) { }
   } *)
Definition loop1 : stmt :=
  SFor (SCons (SDecl (-4) None) SNil) (Some (Bin BLt (Rv X) (Num 10))) (Some (Inc X true false))
    (SBlock (SCons (SIf (Bin BEq (Rv X) (Num 3)) SContinue)
            (SCons (SSwitch (Rv X) (KCase [5; 0] (SExpr (Inc B true false)) (KCase [7] SBreak (KDefault (SExpr (AsgOp B BAdd (Bin BMul (Rv X) (Num 10))))))))
             SNil))).
Definition loop2 : stmt :=
  SDo (SBlock (SCons (SExpr (Inc Y false false)) (SCons (SIf (Bin BEq (Rv Y) (Num 2)) (SReturn (Some (Rv B)))) SNil))) (Bin BGt (Rv Y) (Num 0)).
Definition the_body : stmt := SBlock (SCons loop1 (SCons loop2 (SCons (SWhile (Num 1) (SBlock SNil)) SNil))).
Definition the_function : list aop := gfun the_lab (fun g => address_now before_code (the_lab g)) the_body 3.
Definition function_history : list aop := before_code ++ the_function ++ [].
Definition returned (r : sres) : option Z := match r with Fin (Ret v) _ => Some v | _ => None end.
Definition cell_after (r : sres) (x : loc) : option Z := match r with Fin _ st => Some (st x) | _ => None end.
Lemma the_function_built : built function_history (the_machine (code_of function_history)).
Proof.
  apply built_check; [|apply closed_check; vm_compute; reflexivity|reflexivity].
  apply well_used_check; [vm_compute; repeat split; discriminate|vm_compute; discriminate].
Qed.
Lemma the_body_accepted : accepted_s false the_body.
Proof.
  cbn. unfold is_i32, two31. repeat first [exact Logic.I|reflexivity|lia|split].
  - repeat constructor; cbn [In]; lia.
  - repeat (apply Forall_cons; [lia|]). apply Forall_nil.
Qed.
Lemma function_hypotheses : let M := the_machine (code_of function_history) in
  built function_history M /\
  placed_data M the_scope the_base (resolve function_history) the_lab (fun g => address_now before_code (the_lab g)) /\
  (forall c, m_tmo M c = false) /\ accepted_s false the_body /\ holds M the_scope the_base the_store the_mem /\
  hp (m_rt M) + 4 * sdepth the_body < 16384 <= sp (m_rt M).
Proof.
  cbv zeta. split; [exact the_function_built|]. split; [apply the_placed; vm_compute; reflexivity|].
  split; [reflexivity|]. split; [exact the_body_accepted|]. split; [apply the_holds|]. vm_compute. split; [reflexivity|discriminate].
Qed.
Lemma the_function_returns : let r := execs_body the_scope 20 the_body the_store in
  returned r = Some 132 /\ cell_after r (3%nat, 0) = Some 7 /\ cell_after r (1%nat, 0) = Some 132 /\ cell_after r (4%nat, 0) = Some 2.
Proof. vm_compute. repeat split. Qed.
