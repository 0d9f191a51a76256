From Coq Require Import Lia ZifyBool.
From Verif Require Import Base Rt_Model Array_Model Interp_Model X64_Model Enc_Use.
From Verif Require Enc_Model Enc_Spec Enc_Meant Enc_Proofs Enc_Stream.
Ltac Zify.zify_post_hook ::= idtac.

(* ---- The instructions whose registers the assembler can encode ---- *)
Definition scaled (m : mref) : bool :=
  match m with Idx _ _ s _ => (s =? 1) || (s =? 2) || (s =? 4) || (s =? 8) | _ => true end.
Definition byte_gpr (r : gpr) : bool := (code r <? 4) || (8 <=? code r).
Definition usable (x : xi) : bool :=
  match x with
  | AluI Q _ RAX v | CmpI Q RAX v => Enc_Model.is_i8 v
  | Xchg a b => (code a <? 8) && (code b <? 8)
  | StoreB m s => scaled m && byte_gpr s
  | Movzxb _ s => byte_gpr s
  | MovdR d k => code d =? xcode k
  | Load _ _ m | Store _ m _ | StoreI m _ | Lea _ m | CmpM _ m | Cvtss2si m | Cvttss2si m | RoundFloor m | RoundCeil m => scaled m
  | _ => true
  end.

Lemma code_reg : forall r, Enc_Meant.reg (code r) = true.
Proof. intros []; reflexivity. Qed.
Lemma xcode_reg : forall r, Enc_Meant.reg (xcode r) = true.
Proof. intros []; reflexivity. Qed.
Lemma size_bits : forall w, Enc_Meant.bits (w64 w) = size w.
Proof. intros []; reflexivity. Qed.
Lemma alucode_ok : forall o, Enc_Meant.alu_op (alucode o) = true.
Proof. intros []; reflexivity. Qed.
Lemma shiftcode_ok : forall o, Enc_Spec.is_shift (shiftcode o) = true.
Proof. intros []; reflexivity. Qed.
Lemma onm_right : forall m (f : Enc_Model.addr -> Enc_Model.call) (g : Enc_Spec.place -> Enc_Spec.mi),
  scaled m = true -> fits_m m = true ->
  (forall a, Enc_Meant.ok_addr a = true -> Enc_Meant.takes (f a) = true /\ Enc_Meant.sound (f a) = true
             /\ Enc_Meant.meant (f a) = g (Enc_Meant.names a)) ->
  match onm m f, pmem m g with
  | Some c, Some i => forall t, Enc_Spec.decode (Enc_Model.asm c ++ t) = Some (i, t)
  | None, None => True
  | _, _ => False
  end.
Proof.
  intros m f g S F H. destruct m as [b d|b i s d|k]; cbn [onm operand pmem fits_m scaled] in *; [| | exact Logic.I].
  - destruct (H (Enc_Model.ABase (code b) d)) as (A & B & C); [cbn [Enc_Meant.ok_addr]; rewrite code_reg; exact F|].
    intros t. rewrite (Enc_Proofs.encoded _ A B t), C. reflexivity.
  - assert (SC : 0 <= scalecode s <= 3 /\ 2 ^ scalecode s = s).
    { assert (K : s = 1 \/ s = 2 \/ s = 4 \/ s = 8) by lia. destruct K as [-> | [-> | [-> | ->]]]; cbv; intuition discriminate. }
    destruct (H (Enc_Model.AIndex (code b) (code i) (scalecode s) d)) as (A & B & C).
    { cbn [Enc_Meant.ok_addr]. rewrite !code_reg, F. replace (code i =? 4) with false by (destruct i; reflexivity). lia. }
    intros t. rewrite (Enc_Proofs.encoded _ A B t), C. cbn [Enc_Meant.names]. destruct SC as (_ & ->). reflexivity.
Qed.
Lemma wrap_i32 : forall v, Enc_Meant.i32 (wrap32 v) = true.
Proof. intros v. unfold Enc_Meant.i32, wrap32. assert (K := Z.mod_pos_bound (v + two31) two32). unfold two31, two32 in *. lia. Qed.
Lemma low_and : forall n k, 0 <= k <= 8 -> (n mod 256) mod 2 ^ k = n mod 2 ^ k.
Proof.
  intros n k K. symmetry. apply Znumtheory.Zmod_div_mod; [apply Z.pow_pos_nonneg; lia | lia |].
  exists (2 ^ (8 - k)). rewrite <- Z.pow_add_r by lia. replace (8 - k + k) with 8 by lia. reflexivity.
Qed.
Lemma ucomiss_right : forall l r t, Enc_Meant.ok_rm l = true -> Enc_Meant.reg r = true ->
  Enc_Spec.decode (Enc_Model.asm (Enc_Model.Ucomiss l r) ++ t) = Some (Enc_Spec.IUcomiss r (Enc_Meant.at_rm l), t).
Proof.
  intros l r t L H. cbn [Enc_Model.asm].
  change (Enc_Model.emit2 15 46 (Enc_Model.OReg r) l) with (Enc_Proofs.em2 false 15 46 (Enc_Model.OReg r) l).
  etransitivity; [eapply Enc_Proofs.rm_two; try eassumption; reflexivity | reflexivity].
Qed.
Lemma xorps_right : forall d s t, Enc_Meant.reg d = true -> Enc_Meant.reg s = true ->
  Enc_Spec.decode (Enc_Model.asm (Enc_Model.Xorps d s) ++ t) = Some (Enc_Spec.IXorps s (Enc_Spec.PReg d), t).
Proof.
  intros d s t D S. cbn [Enc_Model.asm].
  change (Enc_Model.emit2 15 87 (Enc_Model.OReg s) (Enc_Model.R d)) with (Enc_Proofs.em2 false 15 87 (Enc_Model.OReg s) (Enc_Model.R d)).
  etransitivity; [eapply Enc_Proofs.rm_two; try eassumption; reflexivity | reflexivity].
Qed.
Ltac direct := intros t; etransitivity;
  [apply Enc_Proofs.encoded; [cbn [Enc_Meant.takes Enc_Meant.ok_rm]; rewrite ?code_reg, ?xcode_reg, ?alucode_ok, ?shiftcode_ok; try reflexivity; try assumption
                             | cbn [Enc_Meant.sound Enc_Meant.byte_reg]; try reflexivity; try assumption]
  | cbn [Enc_Meant.meant Enc_Meant.at_rm]; rewrite ?size_bits; try reflexivity].
Ltac memory := apply onm_right; try assumption; intros ? OA; cbn [Enc_Meant.takes Enc_Meant.sound Enc_Meant.meant Enc_Meant.ok_rm];
  rewrite ?code_reg, ?OA, ?size_bits; repeat split; try reflexivity; try assumption.
Theorem usable_right : forall x, usable x = true -> fits x = true -> emitted_right x.
Proof.
  intros x U F. unfold emitted_right. destruct x; cbn [method wanted usable fits] in *; try exact Logic.I; try solve [direct]; try solve [memory].
  - destruct w; direct.
  - destruct w; direct. apply wrap_i32.
  - apply andb_prop in F. destruct F. memory.
  - apply andb_prop in U. destruct U. memory.
  - destruct w; [destruct o; direct |].
    direct. destruct d; cbn [code]; try reflexivity; exact U.
  - destruct w; direct. destruct a; cbn [code]; try reflexivity; exact U.
  - direct.
    + unfold Enc_Meant.u8. assert (K := Z.mod_pos_bound n 256). lia.
    + destruct w; cbn [size].
      * change 32 with (2 ^ 5) at 2 4. rewrite low_and by lia. reflexivity.
      * change 64 with (2 ^ 6) at 2 4. rewrite low_and by lia. reflexivity.
  - direct.
    + apply andb_prop in U. destruct U as (A & B). unfold Enc_Meant.low. destruct (code b =? 0); assumption.
    + unfold Enc_Model.rax. destruct a, b; reflexivity.
  - direct. destruct c; reflexivity.
  - direct. destruct x; reflexivity.
  - direct. rewrite U. apply Z.eqb_eq in U. rewrite U. destruct x; reflexivity.
  - intros t. apply xorps_right; apply xcode_reg.
  - direct. destruct o; reflexivity.
  - intros t. change (xcode b) with (xcode b). apply (ucomiss_right (Enc_Model.R (xcode b)) (xcode a) t); apply xcode_reg.
Qed.

(* ---- Everything the compiler emits is usable ---- *)
Definition all_usable (l : list xi) : bool := forallb usable l.
Lemma usable_app : forall a b, all_usable (a ++ b) = all_usable a && all_usable b.
Proof. intros. apply forallb_app. Qed.
Lemma usable_check : forall env r n, all_usable (emitCheckAddress env r n) = true.
Proof. intros env []; reflexivity. Qed.
Lemma usable_pushes : forall f, (forall v, all_usable (f v) = true) -> forall l k, all_usable (pushes k f l) = true.
Proof.
  intros f H l. induction l as [|v l IH]; intros k; [reflexivity|]. cbn [pushes]. rewrite usable_app, H.
  cbn [all_usable forallb usable scaled andb]. apply IH.
Qed.
Lemma usable_pushes_c : forall l k, all_usable (pushes_c k l) = true.
Proof. intros l. induction l as [|v l IH]; intros k; [reflexivity|]. cbn [pushes_c all_usable forallb usable scaled andb]. apply IH. Qed.
Lemma usable_bin64 : forall env m slot right ops res, all_usable ops = true -> all_usable (emitBin64 env m slot right ops res) = true.
Proof. intros env m slot right ops res H. unfold emitBin64. rewrite !usable_app, !usable_check, H. reflexivity. Qed.
Lemma usable_fstack : forall f l, emit_fstack f = Some l -> all_usable l = true.
Proof.
  intros f l H. destruct f; cbn [emit_fstack] in H; try discriminate H; try (injection H as <-; reflexivity).
  repeat match type of H with context [if ?c then _ else _] => destruct c end; try discriminate H; injection H as <-; reflexivity.
Qed.
Lemma usable_f32 : forall op l, emit_f32_2 op = Some l -> all_usable l = true.
Proof.
  intros op l H. unfold emit_f32_2 in H.
  destruct op as [|p|p]; try discriminate H; do 8 (try (destruct p as [p|p|]; try discriminate H)); injection H as <-; reflexivity.
Qed.
Lemma usable_heap : forall env a, all_usable (emitHEAP env a) = true.
Proof. intros env a. unfold emitHEAP. destruct (a <? 0); reflexivity. Qed.
Ltac done_list := match goal with H : Some _ = Some _ |- _ => injection H as <- end;
  rewrite ?usable_app, ?usable_check, ?usable_heap, ?usable_pushes_c;
  repeat match goal with |- context [if ?c then _ else _] => destruct c end;
  repeat match goal with r : reg |- _ => destruct r end; try reflexivity.
Theorem emit_usable : forall env natives m i l, emit env natives m i = Some l -> all_usable l = true.
Proof.
  intros env natives m i l H. destruct i; cbn [emit] in H; try discriminate H; try solve [done_list].
  1: { destruct r; injection H as <-; reflexivity. }
  all: try (injection H as <-; rewrite ?usable_app, ?usable_pushes by reflexivity; reflexivity).
  - assert (E := f_equal (fun o => match o with Some y => y | None => [] end) H). cbv beta iota in E. rewrite <- E. rewrite !usable_app, usable_pushes by reflexivity. reflexivity.
  - assert (E := f_equal (fun o => match o with Some y => y | None => [] end) H). cbv beta iota in E. rewrite <- E. clear E H.
    destruct op; match goal with
    | |- all_usable (emitBin64 _ _ _ _ _ _) = true => apply usable_bin64; reflexivity
    | _ => rewrite usable_app; unfold emitDiv64; rewrite !usable_app, !usable_check; reflexivity
    end.
  - destruct op as [|p|p]; try discriminate H; do 8 (try (destruct p as [p|p|]; try discriminate H)); injection H as <-; reflexivity.
  - destruct op as [|p|p]; try discriminate H; do 8 (try (destruct p as [p|p|]; try discriminate H)); injection H as <-; reflexivity.
  - destruct (natives n) as [nt|]; [|discriminate H].
    destruct (n_fn nt); [|injection H as <-; reflexivity]. destruct (n_repl nt) as [f|]; [exact (usable_fstack f l H) | injection H as <-; reflexivity].
  - destruct (n =? 1); [|injection H as <-; reflexivity]. destruct z; injection H as <-; reflexivity.
  - destruct (iv =? 0); [|injection H as <-; destruct r; reflexivity].
    destruct (copy =? 0), (fill =? 0), r; injection H as <-; reflexivity.
Qed.
Theorem compiled_encoded : forall env natives m i l x, emit env natives m i = Some l -> In x l -> fits x = true -> emitted_right x.
Proof.
  intros env natives m i l x E I F. apply usable_right; [|exact F].
  assert (U := emit_usable env natives m i l E). unfold all_usable in U. rewrite forallb_forall in U. exact (U x I).
Qed.
Lemma minus_one : emitted_right (CmpI Q RAX (-1)) /\ fits (CmpI Q RAX (-1)) = true /\ ~ emitted_right (CmpI Q RAX 1000).
Proof.
  split; [apply usable_right; reflexivity|]. split; [reflexivity|]. intros H. unfold emitted_right in H. cbn [method wanted] in H.
  specialize (H []). discriminate H.
Qed.
Lemma buffer_case : Enc_Stream.inside Enc_Model.new_buffer /\ Enc_Model.b_oom Enc_Model.new_buffer = false /\
  Enc_Model.append_all (repeat (true, 15) 300) Enc_Model.new_buffer = Some (Enc_Model.mkBuf 8192 4500 false).
Proof. split; [unfold Enc_Stream.inside; cbn; unfold Enc_Model.kMinBufferSize; lia|]. split; [reflexivity | vm_compute; reflexivity]. Qed.
