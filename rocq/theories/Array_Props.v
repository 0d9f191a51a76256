(* C05, C06: run-time arrays. *)
From Verif Require Import Base Rt_Model Array_Model Interp_Model Rt_Spec Array_Spec Hist_Proofs
  Array_Proofs Array_Exec Array_Host.

(* C05.  A GENARRAY instruction that succeeds leaves, at the top of the stack, the base address of
   a well-formed array of the requested sizes in a new block at the old heap top. *)
Theorem C05_script_array : forall strict fe natives mi s p a n z s',
  layout s -> pointers_ok s -> is_i32 (frm s) -> is_i32 (hp_scope s) ->
  1 <= n -> sp s + 4 * n <= stp s -> 64 <= sp s ->
  exec strict fe natives mi (GENARRAY n z) (mkIst s p a) = Ok tt s' ->
  let sizes := pushed_sizes s n in
  let s2 := rts s' in
  let base := load32 (mem s2) (sp s2) in
  fits s n /\ base = hp s /\ sp s2 = sp s + 4 * (n - 1) /\
  hp s2 = base + 4 * total_cells sizes + (if heap_scopes s then 0 else 4) /\ pointers_ok s2 /\
  array_at (direct_arrays s) (mem s2) base sizes (4 * total_cells sizes) /\
  (z = true -> all_zero (direct_arrays s) (mem s2) base sizes) /\
  (forall x, x < hp s \/ hp s2 <= x -> x < sp s2 \/ sp s2 + 4 <= x -> mem s2 x = mem s x).
Proof. exact genarray_layout. Qed.
Print Assumptions C05_script_array.

(* And every request that fits succeeds. *)
Theorem C05_fitting_request_granted : forall strict fe natives mi s p a n z,
  layout s -> pointers_ok s -> is_i32 (frm s) -> is_i32 (hp_scope s) ->
  1 <= n -> sp s + 4 * n <= stp s -> fits s n ->
  exists s', exec strict fe natives mi (GENARRAY n z) (mkIst s p a) = Ok tt s'.
Proof. exact genarray_succeeds. Qed.
Print Assumptions C05_fitting_request_granted.

(* A 2x3x4 request on a fresh plugin meets all hypotheses. *)
Example C05_request : exists s, fresh demo_rt /\ perform_all req3 demo_rt = Ok tt s /\
  pushed_sizes s 3 = [2; 3; 4] /\ fits s 3 /\ layout s /\ pointers_ok s /\
  is_i32 (frm s) /\ is_i32 (hp_scope s) /\ sp s + 4 * 3 <= stp s /\ 64 <= sp s.
Proof. exact request_example. Qed.

(* The host's two-dimensional allocation delivers every initial value at its index pair. *)
Theorem C05_host_2d_array : forall s len stride rows,
  layout s -> pointers_ok s -> is_i32 (frm s) -> is_i32 (hp_scope s) ->
  64 <= sp s -> 0 < len < two31 -> 0 < stride < two31 ->
  hp s + 4 * (len * (1 + stride)) + 64 < sp s ->
  Z.of_nat (length rows) = len -> Forall (fun r => Z.of_nat (length r) = stride) rows ->
  exists s', HeapAlloc2dArray len stride (Some rows) s = Ok (hp s) s' /\
    hp s' = hp s + 4 * (len * (1 + stride)) + (if heap_scopes s then 0 else 4) /\ sp s' = sp s /\
    (forall x, x < hp s \/ hp s' <= x -> mem s' x = mem s x) /\
    array_at (direct_arrays s) (mem s') (hp s) [len; stride] (4 * (len * (1 + stride))) /\
    forall i j, (i < length rows)%nat -> (j < length (nth i rows []))%nat ->
      is_i32 (nth j (nth i rows []) 0) ->
      load32 (mem s') (locate (direct_arrays s) (mem s') (hp s) [Z.of_nat i; Z.of_nat j])
        = nth j (nth i rows []) 0.
Proof. exact host_2d. Qed.
Print Assumptions C05_host_2d_array.

Example C05_host_hypotheses : exists s rows, fresh s /\ layout s /\ pointers_ok s /\ is_i32 (frm s) /\
  is_i32 (hp_scope s) /\ 64 <= sp s /\ hp s + 4 * (2 * (1 + 3)) + 64 < sp s /\
  Z.of_nat (length rows) = 2 /\ Forall (fun r : list Z => Z.of_nat (length r) = 3) rows.
Proof. exact host_example. Qed.

(* C06.  A request that does not fit is refused.  With two or more dimensions nothing changes at
   all; with one, only the free region and the argument cell may.  Missing from the English
   property: stacks with less than 64 bytes below the top (refuted below), and the argument
   cell of a refused one-dimensional request (refuted below). *)
Theorem C06_unfit_request_refused_partial : forall strict fe natives mi s p a n z,
  layout s -> pointers_ok s -> is_i32 (frm s) -> is_i32 (hp_scope s) ->
  1 <= n -> sp s + 4 * n <= stp s -> 64 <= sp s -> ~ fits s n ->
  exists e s', exec strict fe natives mi (GENARRAY n z) (mkIst s p a) = Fail e (mkIst s' p a) /\
    (1 < n -> s' = s) /\ unchanged_outside s s' (hp s) (sp s + 4 - hp s) /\
    hp s <= hp s' /\ same_plugin s s' /\ sp s' = sp s /\ frm s' = frm s.
Proof. exact genarray_refused. Qed.
Print Assumptions C06_unfit_request_refused_partial.

(* Requests that never fit: a size of zero or less; more cells than there is room for, whatever
   their number does modulo 2^32 (total_cells is the mathematical count). *)
Theorem C06_nonpositive_size : forall s n, (exists d, In d (pushed_sizes s n) /\ d <= 0) -> ~ fits s n.
Proof. exact unfit_nonpositive. Qed.
Print Assumptions C06_nonpositive_size.
Theorem C06_too_big : forall s n, sp s <= hp s + 4 * total_cells (pushed_sizes s n) -> ~ fits s n.
Proof. exact unfit_big. Qed.
Print Assumptions C06_too_big.

Example C06_request : exists s, perform_all req_big demo_rt = Ok tt s /\ ~ fits s 2 /\ layout s /\
  pointers_ok s /\ is_i32 (frm s) /\ is_i32 (hp_scope s) /\ sp s + 4 * 2 <= stp s /\ 64 <= sp s.
Proof. exact refuse_example. Qed.

(* A refused one-dimensional request has already overwritten its size on the stack. *)
Theorem C06_argument_kept_refuted : exists s p a e s',
  fresh demo_rt /\ s = run_ops [OPush 5000] demo_rt /\ pointers_ok s /\
  exec false fe0 (fun _ => None) mi0 (GENARRAY 1 false) (mkIst s p a) = Fail e s' /\
  load32 (mem (rts s')) (sp s) <> load32 (mem s) (sp s).
Proof. exact one_dim_overwrites. Qed.
Print Assumptions C06_argument_kept_refuted.

(* With the stack top below 64 the unsigned margin check passes and the array is written outside
   the plugin's memory. *)
Theorem C06_low_stack_refuted : exists s s', fresh s /\ perform_all low_stack s = Ok tt s' /\ pointers_ok s' /\
  exec false fe0 (fun _ => None) mi0 (GENARRAY 2 true) (mkIst s' 0 0) = UB UBMem.
Proof. exact margin_bypassed. Qed.
Print Assumptions C06_low_stack_refuted.
