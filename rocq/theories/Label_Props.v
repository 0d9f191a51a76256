(* C30: forward jumps are patched to the right place. *)
From Verif Require Import Base Label_Model Label_Spec Label_Proofs.

(* Whatever is emitted and in whatever order labels are used and placed, nothing asserts, the code has
   exactly the cells that were emitted, plain cells are as emitted, and every reference to a placed
   label, made before or after it was placed, holds its address. *)
Theorem C30_patched h : well_used h ->
  exists s, arun h fresh = Done s /\ length (code s) = length (items h) /\
    forall i e, nth_error (items h) i = Some e -> right_cell h e (nth i (code s) 0).
Proof. exact (patched h). Qed.
Print Assumptions C30_patched.
