(* C23 error texts, C33 string literals, C37 code allocation. *)
From Coq Require String. Import String.StringSyntax.
From Verif Require Import Base Small_Model Small_Spec Small_Proofs.
Open Scope Z_scope.

(* C23: each error code gives its text. *)
Theorem C23_known_codes e s : In (e, s) error_text -> GetErrorString e = Value (Some s).
Proof. exact (error_known e s). Qed.
Print Assumptions C23_known_codes.

(* Any other code but one gives no text. *)
Theorem C23_unknown_codes_partial e : ~ known_code e -> e <> 34 -> GetErrorString e = Value None.
Proof. exact (error_unknown e). Qed.
Print Assumptions C23_unknown_codes_partial.

(* Code 34 is unknown, and asking for its text reads past the end of the table. *)
Theorem C23_stays_in_table_refuted : exists e, ~ known_code e /\ GetErrorString e = OutsideTable.
Proof. exact (ex_intro _ 34 error_outside). Qed.
Print Assumptions C23_stays_in_table_refuted.

(* C33: the cells of a literal hold its bytes followed by one to four zero bytes, in the number of
   cells the rest of the compiler computes for length plus one. *)
Theorem C33_bytes s : Forall is_byte s ->
  exists k, (1 <= k <= 4)%nat /\ bytes_of_cells (StringToCells s) = s ++ repeat 0 k /\
    Z.of_nat (length (StringToCells s)) = char_array_cells (Z.of_nat (length s) + 1).
Proof. exact (string_cells s). Qed.
Print Assumptions C33_bytes.

(* No cells that hold the string and a terminator are fewer. *)
Theorem C33_minimal s cs k : bytes_of_cells cs = s ++ repeat 0 k -> (1 <= k)%nat ->
  char_array_cells (Z.of_nat (length s) + 1) <= Z.of_nat (length cs).
Proof. exact (string_minimal s cs k). Qed.
Print Assumptions C33_minimal.

(* C37: after any requests and releases, live blocks do not overlap. *)
Theorem C37_no_overlap page h : 0 < page -> reachable page h -> forall i j b c, i <> j ->
  nth_error (live h) i = Some b -> nth_error (live h) j = Some c -> blocks_apart b c.
Proof. exact (live_apart page h). Qed.
Print Assumptions C37_no_overlap.

(* A block is as large as requested and inside its pool; the other live blocks stay as they were; the
   pool's own bound assertion never fails. *)
Theorem C37_block page reply raw h : 0 < page -> reachable page h -> 0 <= raw < two64 ->
  honest h (pool_bytes page (align raw kMallocAlignment)) reply ->
  let '(h', a) := Allocate page (fun _ => reply) raw h in
  a <> PoolOverrun /\
  forall b, a = Block b -> raw <= b_bytes b /\ live h' = b :: live h /\
    p_start (pool_at h' (b_pool b)) <= b_address b /\ b_address b + b_bytes b <= p_end (pool_at h' (b_pool b)).
Proof. exact (alloc_result page reply raw h). Qed.
Print Assumptions C37_block.
