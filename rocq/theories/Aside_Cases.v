From Coq Require Import ZArith List Bool Lia.
From Verif Require Import Aside_Model Aside_Spec Aside_Proofs.
Import ListNotations.
Local Open Scope Z_scope.

(* Function 1 calls 2; 3 calls 4, and both take 100000 cells. *)
Definition loc2 (f : Z) : Z := if f <=? 2 then 16 else 100000.
Definition two_roots : graph := [(1, [2]); (3, [4])].

Lemma two_roots_bad :
  exists st, compute loc2 two_roots 100000 = Done st /\
    chain two_roots loc2 3 200000 /\ set_aside (m_script st) 0 < 4 * 200000.
Proof.
  eexists. split; [vm_compute; reflexivity|]. split.
  - change 200000 with (loc2 3 + loc2 4). eapply ch_call; [|constructor].
    exists [4]. split; cbn; auto.
  - vm_compute. reflexivity.
Qed.

(* #pragma dynamic 1073741824 *)
Lemma huge_pragma : set_aside 16 (2 ^ 30) = 0.
Proof. reflexivity. Qed.

(* Function 1 calls 2 and 3, 2 calls 3 twice, 3 calls 4. *)
Definition loc4 (f : Z) : Z := if f =? 4 then 500 else 100.
Definition diamond : graph := [(1, [2; 3]); (2, [3; 3]); (3, [4])].
Lemma diamond_case :
  listed_once diamond /\ no_recursion diamond /\ (forall f, 0 < loc4 f) /\ has_calls diamond /\
  starts_at diamond 1 /\ chain diamond loc4 1 800 /\
  exists st, compute loc4 diamond 500 = Done st /\ m_script st = 800 /\ set_aside (m_script st) 0 = 4 * 4896.
Proof.
  split; [|split; [|split; [|split; [|split; [|split]]]]].
  - unfold listed_once. cbn. repeat (constructor; [cbn; lia|]). constructor.
  - exists (fun f => Z.to_nat (4 - f)). intros f t (l & I & J). cbn in I.
    destruct I as [E|[E|[E|[]]]]; injection E as <- <-; cbn in J;
      repeat (destruct J as [<-|J]; [cbn; lia|]); destruct J.
  - intros f. unfold loc4. destruct (f =? 4); lia.
  - intros f l I. cbn in I. destruct I as [E|[E|[E|[]]]]; injection E as <- <-; discriminate.
  - do 2 eexists. reflexivity.
  - change 800 with (loc4 1 + (loc4 2 + (loc4 3 + loc4 4))).
    apply (ch_call _ _ 1 2); [exists [2; 3]; cbn; auto|].
    apply (ch_call _ _ 2 3); [exists [3; 3]; cbn; auto|].
    apply (ch_call _ _ 3 4); [exists [4]; cbn; auto|]. constructor.
  - eexists. split; [vm_compute; reflexivity|]. split; vm_compute; reflexivity.
Qed.
