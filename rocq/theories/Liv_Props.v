(* C52: code is generated for exactly the functions the program can come to
   use. *)
From Coq Require Import ZArith List Bool.
From Verif Require Import Liv_Model Liv_Spec Liv_Proofs Liv_Cases.
Import ListNotations.
Local Open Scope Z_scope.

(* Whatever the functions use, the search for those needed ends. *)
Theorem C52_search_ends : forall p, distinct p ->
  exists a s, live (enough p) p = Some a /\ spared (enough p) p = Some s.
Proof. exact both_end. Qed.
Print Assumptions C52_search_ends.

(* It finds the functions that can be reached from the public ones. *)
Theorem C52_live_is_needed : forall fuel p r, distinct p -> live fuel p = Some r ->
  forall n, In n r <-> needed p n.
Proof. exact live_needed. Qed.
Print Assumptions C52_live_is_needed.

(* Code generation meets no use of a function that was left out, and generates
   code, once, for those functions needed that have a body. *)
Theorem C52_code_for_the_needed : forall fuel p alive, distinct p -> live fuel p = Some alive ->
  exists out, emit alive p = Some out /\ NoDup out /\
    forall n, In n out <-> needed p n /\ exists f l, In f p /\ f_id f = n /\ f_body f = Some l.
Proof. exact emit_needed. Qed.
Print Assumptions C52_code_for_the_needed.

(* A function is reported as never used exactly if it is needed neither by a
   public function nor by one that is kept in case. *)
Theorem C52_unused_reported : forall fuel p alive spare f, distinct p ->
  live fuel p = Some alive -> spared fuel p = Some spare -> In f p ->
  (unused alive spare f = true <->
   (exists l, f_body f = Some l) /\ f_native f = false /\ f_stock f = false /\ f_public f = false /\
   ~ needed p (f_id f) /\ ~ kept p (f_id f)).
Proof. exact unused_spec. Qed.
Print Assumptions C52_unused_reported.

Example C52_case :
  distinct prog /\
  exists alive spare,
    live (enough prog) prog = Some alive /\ spared (enough prog) prog = Some spare /\
    emit alive prog = Some [1; 2; 3] /\
    map f_id (filter (unused alive spare) prog) = [7; 8].
Proof. exact prog_case. Qed.
