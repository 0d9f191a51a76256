(* Model of labels and jumps in the x64 assembler's byte buffer (vm/label.h:40-94; vm/x64/assembler-x64.h:372-397, 472-476,
   522-559, 917-940).  Pending jumps to a label form a list through the bytes of the jumps themselves.
   Simplified: memory does not run out (Enc_Model: the buffer).  None: an assertion fails. *)
From Verif Require Import Base Enc_Model.

(* ---- Label (label.h:40-94): unused 0; pending 2 * the end of the last jump; bound 2 * the place + 1 ---- *)
Definition is_bound (status : Z) : bool := Z.odd status.
Definition to_offset (status : Z) : Z := status / 2.

Record code_buffer := mkCode { c_bytes : bytes; c_labels : nat -> Z }.
Definition new_code : code_buffer := mkCode [] (fun _ => 0).
Definition position (s : code_buffer) : Z := Z.of_nat (length (c_bytes s)).
Definition set_label (l : nat) (v : Z) (f : nat -> Z) : nat -> Z := fun k => if Nat.eqb k l then v else f k.

(* A 32-bit word of the buffer, read and written. *)
Definition read32 (c : bytes) (p : Z) : Z :=
  let at_ i := nth (Z.to_nat (p + i)) c 0 in at_ 0 + 256 * at_ 1 + 65536 * at_ 2 + 16777216 * at_ 3.
Definition write32 (c : bytes) (p v : Z) : bytes := firstn (Z.to_nat p) c ++ le32 v ++ skipn (Z.to_nat p + 4) c.

(* call, jmp, jmp32, j, j32; canEmitSmallJump, emitJumpTarget, Label::addPending. *)
Definition jump_label (j : jump) (l : nat) (s : code_buffer) : option code_buffer :=
  let status := c_labels s l in
  if is_bound status then Some (mkCode (c_bytes s ++ jump_to j (position s) (to_offset status)) (c_labels s))
  else
    let pc := position s + Z.of_nat (length (long_opcode j)) + 4 in
    if (two31 - 1) / 2 <? pc then None
    else Some (mkCode (c_bytes s ++ long_opcode j ++ le32 status) (set_label l (pc * 2) (c_labels s))).

(* bind(Label* ): the loop over pending jumps. *)
Fixpoint patch (fuel : nat) (pos status : Z) (c : bytes) : option bytes :=
  match fuel with
  | O => None
  | S fuel' =>
      if status =? 0 then Some c
      else
        let offset := to_offset status in
        if offset <? 5 then None
        else patch fuel' pos (read32 c (offset - 4)) (write32 c (offset - 4) (pos - offset))
  end.
Definition bind_label (l : nat) (s : code_buffer) : option code_buffer :=
  let status := c_labels s l in
  if is_bound status then None
  else match patch (S (length (c_bytes s))) (position s) status (c_bytes s) with
       | None => None
       | Some c => Some (mkCode c (set_label l (position s * 2 + 1) (c_labels s)))
       end.

(* What a compiler does with the assembler: other instructions, jumps, labels. *)
Inductive step := Bytes (bs : bytes) | Jump (j : jump) (l : nat) | Bind (l : nat).
Definition do_step (o : step) (s : code_buffer) : option code_buffer :=
  match o with
  | Bytes bs => Some (mkCode (c_bytes s ++ bs) (c_labels s))
  | Jump j l => jump_label j l s
  | Bind l => bind_label l s
  end.
Fixpoint do_steps (l : list step) (s : code_buffer) : option code_buffer :=
  match l with [] => Some s | o :: l' => match do_step o s with Some s' => do_steps l' s' | None => None end end.
