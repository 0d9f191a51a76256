From Coq Require Import Lia.
From Verif Require Import Base Enc_Model Enc_Spec Enc_Meant Enc_Proofs Enc_Stream Enc_Label Enc_LabelSpec.

(* A few calls of every kind, with operands of every form. *)
Definition some_calls : list call :=
  [ Mov_rr 8 0; Mov_load true 15 (AIndex 13 12 3 (-129)); Mov_store false (ABase 4 0) 9; Mov_store false (ABase 13 0) 0;
    Movq_i 11 4294967295; Movq_i 2 (-1); Movq_i 12 (-9223372036854775808); Movl_mi (AScale 12 2 100000) (-5);
    Alu true 5 (R 14) 15; Alu_i true 0 (R 14) 100000; Alu_i false 7 (R 0) 2147483647; Alu_i true 4 (M (ABase 5 0)) (-8);
    Testq_i (R 0) (-1); Shift_i true 7 (M (ABase 12 8)) 191; Imull_i 9 10 200; Xchgq 0 2; Set_cc 15 (R 8); Push 15; Pop 12;
    Push_i (-129); Jmp_rm (R 7); Movd_x 1 8; Movd_r 0 0; Sse 94 0 9; Cvttss2si 0 (M (ABase 14 0)); Roundss 7 (ABase 14 4) 2;
    Movq_to_address 1311768467463790320 0; Rep_movsd; Ret ].
Lemma some_calls_ok : forall c, In c some_calls -> takes c = true /\ sound c = true.
Proof.
  assert (K : forallb (fun c => takes c && sound c) some_calls = true) by (vm_compute; reflexivity).
  intros c I. rewrite forallb_forall in K. apply andb_prop. exact (K c I).
Qed.

(* ---- Where the bytes are another instruction ---- *)
Definition becomes (c : call) (i : mi) : Prop := takes c = true /\ decode (asm c) = Some (i, []) /\ i <> meant c.
Ltac other := split; [vm_compute; reflexivity | split; [vm_compute; reflexivity | discriminate]].
Lemma add_rax : becomes (Alu_i true 0 (R 0) 1000) (IAluI 32 0 (PReg 0) 1000).
Proof. other. Qed.
Lemma xchg_r8 : becomes (Xchgq 0 8) (ISignAx 64).
Proof. other. Qed.
Lemma xchg_r9 : becomes (Xchgq 1 9) (IXchg 64 (PReg 1) (PReg 1)).
Proof. other. Qed.
Lemma cvt_r9 : becomes (Cvttss2si 9 (R 0)) (ICvttss2si 32 1 (PReg 0)).
Proof. other. Qed.
Lemma movd_rdx : becomes (Movd_r 2 0) (IMovdFrom 32 (PReg 0) 2).
Proof. other. Qed.
Lemma xorps_01 : becomes (Xorps 0 1) (IXorps 1 (PReg 0)).
Proof. other. Qed.
Lemma ucomiss_01 : becomes (Ucomiss (R 0) 1) (IUcomiss 1 (PReg 0)).
Proof. other. Qed.
Lemma movw_32 : becomes (Movw (ABase 2 0) 0) (IMov 32 (PMem (Some 2) None 0) (PReg 0)).
Proof. other. Qed.
Lemma set_rsi : becomes (Set_cc 4 (R 6)) (ISet 4 (PHigh 2)).
Proof. other. Qed.
(* An address between 2^31 and 2^32, which has32BitEncoding accepts (vm/assembler.h:179-181). *)
Lemma high_address : decode (asm (Movq_from_address 1 4026531840)) = Some (IMov 64 (PReg 1) (PMem None None (-268435456)), []).
Proof. vm_compute. reflexivity. Qed.

(* ---- After memory has run out ---- *)
Definition no_memory : list (bool * Z) := repeat (false, 32) (Z.to_nat 257).
Lemma runs_over : append_all no_memory new_buffer = None /\ forall p, In p no_memory -> snd p = 32.
Proof. split; [vm_compute; reflexivity|]. intros p I. apply repeat_spec in I. rewrite I. reflexivity. Qed.

(* ---- A method with two constants ---- *)
Definition two_constants : option stream :=
  match call_address 140000000000000 (put (Push 3) (mkStream [] [])) with
  | Some s => jmp_address 77 (put (Mov_rr 0 8) s)
  | None => None
  end.
Lemma two_constants_linked : exists s, two_constants = Some s /\ s_table s = [140000000000000; 77]
  /\ decode (skipn 1 (s_code s)) = Some (ICall (PRip (-15)), [73; 139; 192; 255; 37; 224; 255; 255; 255])
  /\ word 4096 s (entry 4096 s + 7 - 15) = Some 140000000000000 /\ word 4096 s (entry 4096 s + 16 - 32) = Some 77.
Proof. eexists. split; [vm_compute; reflexivity|]. repeat split; vm_compute; reflexivity. Qed.

(* ---- Labels ---- *)
(* A loop with an exit: test, leave it forward (twice), go back. *)
Definition some_steps : list step :=
  [Bytes [144]; Bind 0; Jump (JJ 4) 1; Bytes (repeat 144 200); Jump (JJ 5) 0; Jump JJmp 1; Jump JCall 2; Bind 1; Bytes [195]; Bind 2; Bytes [195]].
Lemma some_steps_ok : closed some_steps /\ NoDup (binds some_steps) /\ steps_size some_steps = 227.
Proof.
  split; [|split; [cbn; repeat constructor; cbn; lia | reflexivity]].
  intros j l H. cbn [In some_steps] in H.
  repeat match goal with H : _ \/ _ |- _ => destruct H as [H|H] end; try discriminate H; try contradiction;
    injection H as <- <-; (split; [reflexivity | cbn; tauto]).
Qed.
