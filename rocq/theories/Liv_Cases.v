From Coq Require Import ZArith List Bool Lia.
From Verif Require Import Liv_Model Liv_Spec Liv_Proofs.
Import ListNotations.
Local Open Scope Z_scope.

(* public 1 uses 2 twice and native 6; 2 and 3 use each other; stock 4 uses 5;
   7 and 8 use each other and nobody else does. *)
Definition fn id pub nat stock body :=
  {| f_id := id; f_public := pub; f_native := nat; f_stock := stock; f_member := false; f_body := body |}.
Definition prog : program :=
  [ fn 1 true false false (Some [2; 6; 2]); fn 2 false false false (Some [3]);
    fn 3 false false false (Some [2; 3]); fn 4 false false true (Some [5]);
    fn 5 false false false (Some []); fn 6 false true false None;
    fn 7 false false false (Some [8]); fn 8 false false false (Some [7; 2]) ].

Lemma prog_case :
  distinct prog /\
  exists alive spare,
    live (enough prog) prog = Some alive /\ spared (enough prog) prog = Some spare /\
    emit alive prog = Some [1; 2; 3] /\
    map f_id (filter (unused alive spare) prog) = [7; 8].
Proof.
  split.
  - unfold distinct. cbn. repeat (constructor; [cbn; lia|]). constructor.
  - do 2 eexists. split; [vm_compute; reflexivity|]. split; [vm_compute; reflexivity|].
    split; vm_compute; reflexivity.
Qed.
