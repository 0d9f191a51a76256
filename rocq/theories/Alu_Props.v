(* C12, C13: integer arithmetic of the interpreter. *)
From Verif Require Import Base Rt_Model Interp_Model Rt_Spec Hist_Proofs Array_Exec Mem_Spec Alu_Spec Alu_Proofs.

(* C12.  Every 32-bit arithmetic, bitwise and shift instruction computes the two's complement result
   of its operator into its destination register and changes nothing else.  Missing from the English
   property: shift counts outside 0..31, and a guarantee that overflow wraps (C++ leaves both
   undefined: refuted below); the theorem reads signed overflow as wrapping. *)
Theorem C12_arithmetic_partial : forall fe natives mi i st o x y d,
  operation32 i st = Some (o, x, y, d) -> is_i32 (pri st) -> is_i32 (alt st) -> is_i32 x -> is_i32 y ->
  word_error 32 o x y = None -> shift_in_range 32 o y ->
  exists r, exec false fe natives mi i st = Ok tt (put_reg d r st) /\ word_result 32 o x y r.
Proof. exact alu32. Qed.
Print Assumptions C12_arithmetic_partial.

(* Division by zero and minimum / -1 are errors that change nothing. *)
Theorem C12_division_error : forall fe natives mi i st o x y d e,
  operation32 i st = Some (o, x, y, d) -> word_error 32 o x y = Some e ->
  exec false fe natives mi i st = Fail e st.
Proof. exact alu32_error. Qed.
Print Assumptions C12_division_error.

(* The combined division instruction: quotient in PRI, remainder in ALT, or an error. *)
Theorem C12_divide : forall fe natives mi r st,
  let x := get_reg r st in let y := get_reg (match r with Pri => Alt | Alt => Pri end) st in
  is_i32 (pri st) -> is_i32 (alt st) ->
  match word_error 32 WDiv x y with
  | Some e => exec false fe natives mi (SDIV r) st = Fail e st
  | None => exists q m, exec false fe natives mi (SDIV r) st = Ok tt (mkIst (rts st) q m) /\
              is_i32 q /\ is_i32 m /\ divides_as x y q m
  end.
Proof. exact sdiv_both. Qed.
Print Assumptions C12_divide.

Theorem C12_comparison : forall fe natives mi i st P, relation i st = Some P ->
  exists r, exec false fe natives mi i st = Ok tt (put_reg Pri r st) /\ (r = 1 /\ P \/ r = 0 /\ ~ P).
Proof. exact compare32. Qed.
Print Assumptions C12_comparison.

Example C12_hypotheses : operation32 SDIV_ALT_I32 (mkIst demo_rt (-2) 7) = Some (WDiv, 7, -2, Pri) /\
  is_i32 (-2) /\ is_i32 7 /\ word_error 32 WDiv 7 (-2) = None /\ divides_as 7 (-2) (-3) 1 /\
  word_error 32 WDiv (- two31) (-1) = Some INTEGER_OVERFLOW.
Proof. repeat split; cbn; unfold two31; try lia; reflexivity. Qed.

Theorem C12_shift_count_refuted : forall fe natives mi s,
  exec false fe natives mi SHL (mkIst s 1 32) = UB UBArith.
Proof. exact shift_undefined. Qed.
Print Assumptions C12_shift_count_refuted.

Theorem C12_overflow_undefined_refuted : forall fe natives mi s,
  exec true fe natives mi ADD (mkIst s 2147483647 1) = UB UBArith.
Proof. exact add_undefined. Qed.
Print Assumptions C12_overflow_undefined_refuted.

(* C13.  PRI and ALT are addresses of 64-bit values; the result goes to the frame slot, whose address
   is left in PRI.  Division errors change nothing.  Missing: shift counts outside 0..63 (refuted
   below) and slots that are not addressable (C01_int64_slot_refuted). *)
Theorem C13_arithmetic_partial : forall fe natives mi o k st vp va,
  layout (rts st) -> slot64_ok (rts st) (slot mi st k) ->
  readable64 (rts st) (pri st) -> readable64 (rts st) (alt st) ->
  value64 (rts st) (pri st) vp -> value64 (rts st) (alt st) va ->
  let '(x, y) := if snd (operation64 o) then (va, vp) else (vp, va) in
  match word_error 64 (fst (operation64 o)) x y with
  | Some e => exec false fe natives mi (BIN64 o k) st = Fail e st
  | None => shift_in_range 64 (fst (operation64 o)) y ->
     exists r s', exec false fe natives mi (BIN64 o k) st = Ok tt (mkIst s' (slot mi st k) (alt st)) /\
       word_result 64 (fst (operation64 o)) x y r /\ stores64 (rts st) s' (slot mi st k) r
  end.
Proof. exact bin64_ok. Qed.
Print Assumptions C13_arithmetic_partial.

Theorem C13_unary : forall fe natives mi o k st v,
  layout (rts st) -> slot64_ok (rts st) (slot mi st k) -> readable64 (rts st) (pri st) ->
  value64 (rts st) (pri st) v ->
  exists r s', exec false fe natives mi (UN64 o k) st = Ok tt (mkIst s' (slot mi st k) (alt st)) /\
    match o with Neg64 => word_result 64 WSub 0 v r | Inv64 => word_result 64 WXor v (-1) r end /\
    stores64 (rts st) s' (slot mi st k) r.
Proof. exact un64_ok. Qed.
Print Assumptions C13_unary.

Theorem C13_comparison : forall fe natives mi c st vp va P,
  layout (rts st) -> readable64 (rts st) (pri st) -> readable64 (rts st) (alt st) ->
  value64 (rts st) (pri st) vp -> value64 (rts st) (alt st) va -> relation64 c vp va = Some P ->
  exists r, exec false fe natives mi (CMP64 c) st = Ok tt (put_reg Pri r st) /\ (r = 1 /\ P \/ r = 0 /\ ~ P).
Proof. exact cmp64_ok. Qed.
Print Assumptions C13_comparison.

(* Sign extension, truncation, test, and stores of a constant or another value. *)
Theorem C13_extend : forall fe natives mi k st,
  layout (rts st) -> slot64_ok (rts st) (slot mi st k) -> is_i32 (pri st) ->
  exists s', exec false fe natives mi (CVT_I64 k) st = Ok tt (mkIst s' (slot mi st k) (alt st)) /\
    stores64 (rts st) s' (slot mi st k) (pri st).
Proof. exact cvt64_ok. Qed.
Print Assumptions C13_extend.

Theorem C13_truncate : forall fe natives mi st v,
  layout (rts st) -> readable64 (rts st) (pri st) -> value64 (rts st) (pri st) v ->
  exists r, exec false fe natives mi TRUNCATE_I64 st = Ok tt (put_reg Pri r st) /\ is_word 32 r v.
Proof. exact trunc64_ok. Qed.
Print Assumptions C13_truncate.

Theorem C13_test : forall fe natives mi st v,
  layout (rts st) -> readable64 (rts st) (pri st) -> value64 (rts st) (pri st) v ->
  exists r, exec false fe natives mi TEST_I64 st = Ok tt (put_reg Pri r st) /\ (r = 1 /\ v <> 0 \/ r = 0 /\ v = 0).
Proof. exact test64_ok. Qed.
Print Assumptions C13_test.

Theorem C13_store_constant : forall fe natives mi k c0 c1 st,
  layout (rts st) -> slot64_ok (rts st) (slot mi st k) -> is_i32 c0 -> is_i32 c1 ->
  exists s' v, exec false fe natives mi (STOR_S_C_I64 k c0 c1) st = Ok tt (mkIst s' (pri st) (alt st)) /\
    stores64 (rts st) s' (slot mi st k) v /\ v mod 2 ^ 64 = c0 mod 2 ^ 32 + 2 ^ 32 * (c1 mod 2 ^ 32).
Proof. exact store_c64_ok. Qed.
Print Assumptions C13_store_constant.

Theorem C13_store_value : forall fe natives mi k st v,
  layout (rts st) -> slot64_ok (rts st) (slot mi st k) -> readable64 (rts st) (pri st) ->
  value64 (rts st) (pri st) v ->
  exists s', exec false fe natives mi (STOR_S_PRI_I64 k) st = Ok tt (mkIst s' (pri st) (alt st)) /\
    stores64 (rts st) s' (slot mi st k) v.
Proof. exact store_pri64_ok. Qed.
Print Assumptions C13_store_value.

Theorem C13_bad_operand : forall fe natives mi i st,
  layout (rts st) -> is_i32 (pri st) -> ~ readable64 (rts st) (pri st) ->
  match i with BIN64 _ _ | UN64 _ _ | CMP64 _ | TRUNCATE_I64 | TEST_I64 | STOR_S_PRI_I64 _ => True | _ => False end ->
  exec false fe natives mi i st = Fail INVALID_ADDRESS st.
Proof. exact operand64_bad. Qed.
Print Assumptions C13_bad_operand.

Example C13_hypotheses : layout (rts demo64) /\ readable64 (rts demo64) (pri demo64) /\
  readable64 (rts demo64) (alt demo64) /\ slot64_ok (rts demo64) (slot mi0 demo64 (-16)) /\
  value64 (rts demo64) (pri demo64) (-7) /\ value64 (rts demo64) (alt demo64) 2.
Proof. exact demo64_ok. Qed.

Theorem C13_shift_count_refuted : exists s, layout s /\ readable64 s 16 /\ readable64 s 24 /\ value64 s 24 64 /\
  exec false fe0 (fun _ => None) mi0 (BIN64 Shl64 (-16)) (mkIst s 16 24) = UB UBArith.
Proof. exact shift64_undefined. Qed.
Print Assumptions C13_shift_count_refuted.
