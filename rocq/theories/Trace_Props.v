(* C54: a listing of frames shows what is active. *)
From Coq Require Import ZArith List Bool.
From Verif Require Import Base Trace_Model Trace_Spec Trace_Words Trace_Walk Trace_Proofs Trace_Cases.
Import ListNotations.
Local Open Scope Z_scope.

(* However compiled code, interpreted code and host code have called each
   other, and whatever the host leaves on the stack: every listing comes to its
   end and shows the functions and natives that are active, innermost first,
   each function with the instruction it is at; after errors as after returns
   the frames around are as they were.  Listings taken by the helper that
   initialises arrays are left out. *)
Theorem C54_active_shown_partial : forall code h m,
  top m = [] -> hproper false code h -> hwords h < rsp m ->
  exists n, forall fuel, (n <= fuel)%nat -> exists m' os,
    hgo fuel code h m = Some (m', os) /\ Forall2 shows os (htraces [] h) /\ intact m m'.
Proof. exact run_listings. Qed.
Print Assumptions C54_active_shown_partial.

Example C54_case : hproper false code0 run0 /\ hwords run0 < rsp mach0 /\ top mach0 = [] /\
  htraces [] run0 = traces0.
Proof. exact run0_case. Qed.

(* With them it is false: the address shown is whatever lay on the stack. *)
Theorem C54_initialised_arrays_refuted : exists code h m,
  top m = [] /\ hproper true code h /\ hwords h < rsp m /\
  forall fuel m' os, hgo fuel code h m = Some (m', os) -> ~ Forall2 shows os (htraces [] h).
Proof. exact init_arrays_wrong. Qed.
Print Assumptions C54_initialised_arrays_refuted.

(* What became of that run: the wrong instruction, a failed assertion, or no
   position at all. *)
Example C54_initialised_arrays_case :
  outs 50 (run1 2010) = Some [Got [ActFun 1 200 212; ActFun 1 100 108]] /\
  outs 50 (run1 0) = Some [AssertFails] /\
  outs 50 (run1 999999) = Some [Got [ActFun 1 200 kInvalidCip; ActFun 1 100 108]].
Proof. exact run1_outs. Qed.

(* The number of a native is read back from the frame it was put into. *)
Theorem C54_native_number_partial : forall ty p, 0 <= ty < 8 -> 0 <= p < 2 ^ 28 ->
  let v := u64 (function_id (frame_word t_exit (encode_exit ty p))) in
  exit_type v = ty /\ u32 (exit_payload v) = p.
Proof. exact exit_round. Qed.
Print Assumptions C54_native_number_partial.

Theorem C54_native_number_refuted :
  let v := u64 (function_id (frame_word t_exit (encode_exit x_native (2 ^ 28)))) in
  u32 (exit_payload v) <> 2 ^ 28.
Proof. exact native_number_wrong. Qed.
Print Assumptions C54_native_number_refuted.

(* The table of a compiled function lists no place twice, *)
Theorem C54_places_once : forall z start pro ops, sized z pro ops ->
  ascending (map en_pc (emit_table z start pro ops)).
Proof. exact table_ascending. Qed.
Print Assumptions C54_places_once.

(* and names, for every call, failed check and timeout, the instruction it
   belongs to: these places are recorded in the sense of C54_active_shown. *)
Theorem C54_places_named_partial : forall code cx fn c z start pro ops x, sized z pro ops ->
  code cx fn = Some c -> c_map c = cip_map z start pro ops ->
  0 < c_entry c -> c_size c < two32 ->
  In x (emit_table z start pro ops) -> direct (en_why x) = true ->
  0 <= en_pc x <= c_size c -> start <= en_owner x < start + two32 ->
  0 <= fn + (en_owner x - start) < two32 ->
  recorded code cx fn (Site (c_entry c + en_pc x) (fn + (en_owner x - start))).
Proof. exact table_recorded. Qed.
Print Assumptions C54_places_named_partial.

Example C54_places_case : sized z0 7 ops0 /\ emit_table z0 4000 7 ops0 =
  [ Entry 12 4004 4004 RCall; Entry 48 0 4000 RPrologue; Entry 53 4004 4004 RError;
    Entry 58 4012 0 RDebugger; Entry 63 4012 4004 RThunkFailed; Entry 68 4012 4012 RTimeout ].
Proof. exact (conj ops0_sized ops0_table). Qed.

(* Not so when a function does not find room on the stack: the place is given
   as that of a null pointer, *)
Theorem C54_no_room_refuted : exists z start pro ops x, sized z pro ops /\
  In x (emit_table z start pro ops) /\ en_why x = RPrologue /\ en_owner x = start /\
  en_cip x = 0 /\ start <> 0.
Proof. exact prologue_position. Qed.
Print Assumptions C54_no_room_refuted.

(* nor when the function called cannot be compiled: the place is given as that
   of the last instruction. *)
Theorem C54_callee_not_compiled_refuted : exists z start pro ops x, sized z pro ops /\
  In x (emit_table z start pro ops) /\ en_why x = RThunkFailed /\ en_cip x <> en_owner x.
Proof. exact thunk_position. Qed.
Print Assumptions C54_callee_not_compiled_refuted.
