(* C56: machine code. *)
From Verif Require Import Base Rt_Model Interp_Model X64_Model Enc_Use Enc_Model Enc_Spec Enc_Meant Enc_Stream Enc_Label Enc_LabelSpec Enc_Cases.
From Verif Require Enc_Proofs Enc_Emit Enc_Patch.

(* The bytes a method of the assembler appends are the instruction it is named after, for every operand it takes; whatever follows
   is left.  [sound] excepts the arguments for which this is false, below. *)
Theorem C56_instruction_partial c : takes c = true -> sound c = true ->
  forall rest, decode (asm c ++ rest) = Some (meant c, rest).
Proof. exact (Enc_Proofs.encoded c). Qed.
Print Assumptions C56_instruction_partial.

(* A sequence of calls is read back as the same sequence. *)
Theorem C56_sequence_partial l : (forall c, In c l -> takes c = true /\ sound c = true) -> decodes (asm_all l) (map meant l).
Proof. exact (stream_right l). Qed.
Print Assumptions C56_sequence_partial.
Example C56_calls : (forall c, In c some_calls -> takes c = true /\ sound c = true) /\ length some_calls = 29%nat.
Proof. exact (conj some_calls_ok eq_refl). Qed.

(* movq of a constant leaves the constant in all 64 bits, whichever of its three forms is chosen. *)
Theorem C56_constant d v : reg d = true -> i64 v = true ->
  exists i, (forall rest, decode (asm (Movq_i d v) ++ rest) = Some (i, rest)) /\ sets i = Some (d, v mod two64).
Proof.
  exact (fun D V => ex_intro _ (mov_const d v) (conj (Enc_Proofs.movq_i d v (andb_true_intro (conj D V))) (const_right d v V))).
Qed.
Print Assumptions C56_constant.

(* Every instruction the compiler emits for any instruction of a plugin (X64_Model), where its operands have 32 bits, is in bytes
   the machine instruction it was taken for there.  Missing: the fields of the runtime, reached by host addresses; jumps (below);
   calls of host functions. *)
Theorem C56_compiled_partial env natives m i l x :
  emit env natives m i = Some l -> In x l -> fits x = true -> emitted_right x.
Proof. exact (Enc_Emit.compiled_encoded env natives m i l x). Qed.
Print Assumptions C56_compiled_partial.
Example C56_compiled_example : emitted_right (CmpI Q RAX (-1)) /\ fits (CmpI Q RAX (-1)) = true /\ ~ emitted_right (CmpI Q RAX 1000).
Proof. exact Enc_Emit.minus_one. Qed.

(* A jump or call to a label that stands before it ends up there, in its short form and in its long form. *)
Theorem C56_jump j position target : ok_jump j = true -> 0 <= position < two31 / 2 -> 0 <= target < two31 / 2 ->
  exists d, (forall rest, decode (jump_to j position target ++ rest) = Some (jumps j d, rest))
    /\ position + Z.of_nat (length (jump_to j position target)) + d = target.
Proof. exact (jump_right j position target). Qed.
Print Assumptions C56_jump.
Example C56_jump_example : length (jump_to (JJ 4) 200 74) = 2%nat /\ length (jump_to (JJ 4) 200 73) = 6%nat.
Proof. exact (conj eq_refl eq_refl). Qed.

(* Code assembled in one pass, with pending jumps linked through their own bytes and patched when their label is bound, has every
   step in its place and every jump, forward or backward, to the place where its label was bound. *)
Theorem C56_labels steps : closed steps -> NoDup (binds steps) -> steps_size steps < two31 / 2 ->
  exists s start, do_steps steps new_code = Some s /\ laid steps (c_bytes s) start.
Proof. exact (Enc_Patch.labels_done steps). Qed.
Print Assumptions C56_labels.
Example C56_labels_example : closed some_steps /\ NoDup (binds some_steps) /\ steps_size some_steps = 227.
Proof. exact some_steps_ok. Qed.

(* A call or jump through a constant finds the constant, wherever the method is linked and whatever is emitted after it. *)
Theorem C56_host_call v s s' : call_address v s = Some s' ->
  exists d, s_code s' = s_code s ++ [255; rip_modrm 2] ++ le32 d
  /\ (forall rest, decode (([255; rip_modrm 2] ++ le32 d) ++ rest) = Some (ICall (PRip d), rest))
  /\ forall a whole code2 more, whole = mkStream (s_code s' ++ code2) (s_table s' ++ more) ->
     word a whole (entry a whole + pc s' + d) = Some v.
Proof. exact (rip_right _ v s s' 2 ICall (or_introl eq_refl)). Qed.
Print Assumptions C56_host_call.
Theorem C56_host_jump v s s' : jmp_address v s = Some s' ->
  exists d, s_code s' = s_code s ++ [255; rip_modrm 4] ++ le32 d
  /\ (forall rest, decode (([255; rip_modrm 4] ++ le32 d) ++ rest) = Some (IJump (PRip d), rest))
  /\ forall a whole code2 more, whole = mkStream (s_code s' ++ code2) (s_table s' ++ more) ->
     word a whole (entry a whole + pc s' + d) = Some v.
Proof. exact (rip_right _ v s s' 4 IJump (or_intror eq_refl)). Qed.
Print Assumptions C56_host_jump.
(* The entries of a table emitted last to first are found first to last from its label. *)
Theorem C56_table orig_rip s before E a whole code2 more k v :
  s_table s = before ++ rev E -> nth_error E k = Some v ->
  whole = mkStream (s_code s ++ code2) (s_table s ++ more) ->
  word a whole (entry a whole + orig_rip + data_label orig_rip s + 8 * Z.of_nat k) = Some v.
Proof. exact (data_label_right orig_rip s before E a whole code2 more k v). Qed.
Print Assumptions C56_table.
Example C56_linked_example : exists s, two_constants = Some s /\ s_table s = [140000000000000; 77]
  /\ decode (skipn 1 (s_code s)) = Some (ICall (PRip (-15)), [73; 139; 192; 255; 37; 224; 255; 255; 255])
  /\ word 4096 s (entry 4096 s + 7 - 15) = Some 140000000000000 /\ word 4096 s (entry 4096 s + 16 - 32) = Some 77.
Proof. exact two_constants_linked. Qed.

(* No method appends more than the 32 bytes it has made sure of. *)
Theorem C56_length c : (1 <= length (asm c) <= 15)%nat.
Proof. exact (asm_len c). Qed.
Print Assumptions C56_length.
(* So nothing is written outside the buffer, and everything one after the other, up to the first time memory runs out. *)
Theorem C56_buffer_partial l : (forall p, In p l -> 0 <= snd p <= kMaxInstructionSize) ->
  forall b, inside b -> b_oom b = false ->
  (exists b', append_all l b = Some b' /\ inside b' /\ b_oom b' = false /\ b_pos b' = b_pos b + total l)
  \/ (exists l1 l2 b', l = l1 ++ l2 /\ append_all l1 b = Some b' /\ b_oom b' = true).
Proof. exact (buffer_right l). Qed.
Print Assumptions C56_buffer_partial.
Example C56_buffer_example : inside new_buffer /\ b_oom new_buffer = false /\
  append_all (repeat (true, 15) 300) new_buffer = Some (mkBuf 8192 4500 false).
Proof. exact Enc_Emit.buffer_case. Qed.
(* Afterwards the position starts over once and then runs out of the buffer. *)
Theorem C56_out_of_memory_refuted : exists l, append_all l new_buffer = None /\ forall p, In p l -> snd p = 32.
Proof. exact (ex_intro _ no_memory runs_over). Qed.
Print Assumptions C56_out_of_memory_refuted.

(* ---- Other instructions than meant ---- *)
(* addq(rax, 1000), as subq, andq and cmpq: without REX.W, the upper half of rax is lost. *)
Theorem C56_rax_immediate_refuted : becomes (Enc_Model.Alu_i true 0 (Enc_Model.R 0) 1000) (IAluI 32 0 (PReg 0) 1000).
Proof. exact add_rax. Qed.
Print Assumptions C56_rax_immediate_refuted.
(* xchgq(rax, r8) is cdqe; xchgq(rcx, r9) leaves both. *)
Theorem C56_xchg_refuted : becomes (Xchgq 0 8) (ISignAx 64) /\ becomes (Xchgq 1 9) (IXchg 64 (PReg 1) (PReg 1)).
Proof. exact (conj xchg_r8 xchg_r9). Qed.
Print Assumptions C56_xchg_refuted.
(* cvttss2si(r9, xmm0) writes rcx: as all SSE instructions with a destination of 8 to 15. *)
Theorem C56_sse_destination_refuted : becomes (Enc_Model.Cvttss2si 9 (Enc_Model.R 0)) (ICvttss2si 32 1 (PReg 0)).
Proof. exact cvt_r9. Qed.
Print Assumptions C56_sse_destination_refuted.
(* movd(rdx, xmm0) copies xmm2 to rax. *)
Theorem C56_movd_refuted : becomes (Movd_r 2 0) (IMovdFrom 32 (PReg 0) 2).
Proof. exact movd_rdx. Qed.
Print Assumptions C56_movd_refuted.
(* xorps(xmm0, xmm1) changes xmm1; ucomiss(xmm0, xmm1) compares xmm1 with xmm0 (as the compiler expects: C56_compiled_partial). *)
Theorem C56_reversed_refuted : becomes (Xorps 0 1) (IXorps 1 (PReg 0)) /\ becomes (Ucomiss (Enc_Model.R 0) 1) (IUcomiss 1 (PReg 0)).
Proof. exact (conj xorps_01 ucomiss_01). Qed.
Print Assumptions C56_reversed_refuted.
(* movw stores 32 bits; set(equal, rsi) sets dh. *)
Theorem C56_small_operands_refuted : becomes (Movw (ABase 2 0) 0) (IMov 32 (PMem (Some 2) None 0) (PReg 0))
  /\ becomes (Set_cc 4 (Enc_Model.R 6)) (ISet 4 (PHigh 2)).
Proof. exact (conj movw_32 set_rsi). Qed.
Print Assumptions C56_small_operands_refuted.
(* The 32-bit address 0xf0000000 is read as 0xfffffffff0000000. *)
Theorem C56_address_refuted :
  decode (asm (Movq_from_address 1 4026531840)) = Some (IMov 64 (PReg 1) (PMem None None (-268435456)), []).
Proof. exact high_address. Qed.
Print Assumptions C56_address_refuted.
