(* The theorems about compiled methods, from the analyses the compiler builds. *)
From Verif Require Import Base Rtti_Model Rt_Model Array_Model Interp_Model Rt_Spec Mem_Spec Cfg_Model Cfg_Spec Dom_Model Dom_Spec X64_Model X64_Spec Jit_Model Jit_Spec.
From Verif Require Import Dom_Build Jit_Proofs Jit_Table Jit_Poll.

Lemma build_accepted strict rounds fuel code m x : build strict rounds fuel code m = CGood x -> accepted code m.
Proof. unfold build, accepted. intros E. destruct (scan_method strict fuel code m) as [y| | |] eqn:S1; try discriminate. now exists strict, fuel, y. Qed.
Lemma whole_method base env fp natives junk fe p t m mi K strict rounds fuel pr g an :
  user_space base -> natives_ok natives -> floats_agree fe fp -> float_cells fe -> slot_table_ok mi ->
  p_natives p = natives -> code_ok (p_code p) -> counts_ok (p_code p) m ->
  build strict rounds fuel (p_code p) m = CGood (pr, g, an) ->
  registers_ok (p_code p) m K -> supported env natives (p_code p) mi m -> unshared (p_code p) m ->
  forall c c', within base fe p t c c' -> forall j, matches base env (p_code p) m mi pr g K c j ->
  exists j', jruns base env fp natives junk (p_code p) mi g (an_rpo an) j j' /\ matches base env (p_code p) m mi pr g K c' j'.
Proof.
  intros US NAT FA FC ST NP CO CK BU RO SU UN. destruct (build_good _ _ _ _ _ _ _ _ CO BU) as (B & A & _).
  exact (jit_run base env fp natives junk fe US NAT FA FC p t m mi pr g an K NP CO CK (build_accepted _ _ _ _ _ _ BU) B A RO SU ST
    (table_right strict rounds fuel (p_code p) m pr g an CO CK BU (build_accepted _ _ _ _ _ _ BU) B A UN)).
Qed.
Lemma whole_polls base env fp natives junk code m mi strict rounds fuel pr g an :
  code_ok code -> counts_ok code m -> build strict rounds fuel code m = CGood (pr, g, an) ->
  forall k j j', in_method code m pr g j -> quietly base env fp natives junk code mi g (an_rpo an) k j j' ->
  Z.of_nat k < (Z.of_nat (length (an_rpo an)) + 1) * (Z.of_nat (length code) + 1) /\
  (k <> 0%nat -> (j_block j', j_cell j') <> (j_block j, j_cell j)).
Proof.
  intros CO CK BU. destruct (build_good _ _ _ _ _ _ _ _ CO BU) as (B & A & _).
  exact (recorded_soon base env fp natives junk code m mi pr g an CO CK (build_accepted _ _ _ _ _ _ BU) B A).
Qed.
