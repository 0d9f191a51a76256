(* Each emitted sequence does what the interpreter does: C46, instruction by instruction. *)
From Verif Require Import Base Rt_Model Array_Model Interp_Model Rt_Spec Mem_Spec X64_Model X64_Spec.
From Verif Require Import Base_Proofs Rt_Proofs Mem_Proofs X64_Step X64_Arith X64_Push X64_Copy.
From Coq Require Import ZifyBool Lia.
Ltac Zify.zify_post_hook ::= idtac.

Lemma so_i32 mi o : slot_table_ok mi -> is_i32 o -> is_i32 (StackOffset mi o).
Proof.
  intros ST H. unfold StackOffset. destruct (negb (typed mi)); [exact H|]. destruct (o <? 0); [apply wrap32_range|].
  destruct (nth_in_or_default (Z.to_nat o) (local_offsets mi) 0) as [I0 | ->]; [|unb; lia].
  unfold slot_table_ok in ST. rewrite Forall_forall in ST. now apply ST.
Qed.
(* A frame slot the interpreter accepts is where rbx plus the offset points. *)
Lemma slot_addr_of r z : layout r -> 0 <= frm r < mem_size r -> is_i32 z -> script_address r (wrap32 (frm r + z)) ->
  wrap32 (frm r + z) = frm r + z /\ 0 <= frm r + z < stp r.
Proof.
  intros [] F Z0 [S _]. assert (E : wrap32 (frm r + z) = frm r + z); [|rewrite E in S; auto].
  destruct (wrap32_mod (frm r + z)) as (k & K). rewrite K in *. unfold is_i32, two31, two32 in *. lia.
Qed.

Section Sim.
Variables (base : Z) (env : rt) (fp : fpu) (nat_ : Z -> option native) (junk : gpr -> Z) (mi : meth) (fe : fenv).
Hypothesis US : user_space base.
Hypothesis NAT : natives_ok nat_.
Hypothesis FA : floats_agree fe fp.
Hypothesis ST : slot_table_ok mi.
Variables (r : rt) (p a : Z) (x : xst) (kp ka : bool).
Hypothesis SP : same_plugin env r.
Hypothesis RUN : running (mkIst r p a).
Hypothesis HO : holds base kp ka (mkIst r p a) x.
Hypothesis EM : xm x = mem r.
Notation X i s' := (exec false fe nat_ mi i (mkIst r p a) = Ok tt s').
Notation G := (goes base env fp nat_ junk).
Notation so := (StackOffset mi).

Lemma EP : kp = true -> xr x RAX = u32 p. Proof. exact (ho_pri _ _ _ _ _ HO). Qed.
Lemma EA : ka = true -> xr x RDX = u32 a. Proof. exact (ho_alt _ _ _ _ _ HO). Qed.
Lemma EF : xr x RBX = base + frm r. Proof. exact (ho_frm _ _ _ _ _ HO). Qed.
Lemma ES : xr x R14 = base + sp r. Proof. exact (ho_stk _ _ _ _ _ HO). Qed.
Lemma ED : xr x R15 = base. Proof. exact (ho_dat _ _ _ _ _ HO). Qed.
Lemma EH : xc x CHp = u32 (hp r). Proof. exact (ho_hp _ _ _ _ _ HO). Qed.
Lemma ECF : xc x CFrm = u32 (frm r). Proof. exact (ho_cfrm _ _ _ _ _ HO). Qed.
Lemma ESC : xc x CScope = u32 (hp_scope r). Proof. exact (ho_scope _ _ _ _ _ HO). Qed.
Lemma EX : exn x = None. Proof. exact (ho_exn _ _ _ _ _ HO). Qed.
Lemma P32 : is_i32 p. Proof. exact (rn_pri _ RUN). Qed.
Lemma A32 : is_i32 a. Proof. exact (rn_alt _ RUN). Qed.
Lemma LAY : layout r. Proof. exact (proj1 (rn_bounds _ RUN)). Qed.
Lemma PIN : pointers_inside r. Proof. exact (proj2 (rn_bounds _ RUN)). Qed.
Lemma INB : in_bounds r. Proof. exact (rn_bounds _ RUN). Qed.
Lemma MS : mem_size env = mem_size r. Proof. symmetry. apply SP. Qed.
Lemma BO : bytes_only (mem r). Proof. exact (rn_bytes _ RUN). Qed.
Lemma sizes : 0 <= data_size r /\ data_size r + 16384 <= mem_size r /\ mem_size r + 128 <= two31 /\ stp r = mem_size r - 4 /\
  0 <= hp r <= stp r /\ 0 <= sp r < mem_size r /\ 0 <= frm r < mem_size r /\ is_i32 (hp_scope r).
Proof. destruct LAY, PIN. pose proof (rn_frm _ RUN). cbn in *. auto 10. Qed.

Lemma slot_addr o : is_i32 o -> script_address r (wrap32 (frm r + so o)) ->
  wrap32 (frm r + so o) = frm r + so o /\ 0 <= frm r + so o < stp r.
Proof. intros H S. apply slot_addr_of; [exact LAY|exact (rn_frm _ RUN)|now apply so_i32|exact S]. Qed.

(* ---- Tactics: x' alike x; the fields that did not change; one machine instruction; a load or store at base + adr ---- *)
Ltac ua := repeat match goal with
  | H : alike x ?y |- context [xr ?y ?g] => rewrite (proj1 H g) by discriminate
  | H : alike x ?y |- context [xc ?y] => rewrite (proj1 (proj2 H))
  | H : alike x ?y |- context [xm ?y] => rewrite (proj1 (proj2 (proj2 H)))
  | H : alike x ?y |- context [xpush ?y] => rewrite (proj1 (proj2 (proj2 (proj2 H))))
  | H : alike x ?y |- context [exn ?y] => rewrite (proj2 (proj2 (proj2 (proj2 H))))
  end.
Ltac hold := constructor; nx; ua; first [ exact EF | exact ES | exact ED | exact EH | exact ECF | exact ESC | exact EX | exact EP | exact EA
   | (let z := fresh in intros z; rewrite ?EM; reflexivity) | intros _; reflexivity | idtac ].
Ltac stepx := eapply goes_cons; [reflexivity|reflexivity|].
Ltac at_ k := rewrite (ea_at base US _ _ _ k); [lia|nx; ua; rewrite ?ED, ?EF, ?ES; lia|zl].
Ltac ix k := rewrite (ea_idx base US _ _ k); [reflexivity|nx; ua; exact ED|nx; ua; try assumption|zl].
Ltac sz := rewrite ?MS; zl.
Ltac ld adr k := eapply (go_load base env fp nat_ junk _ _ adr); [exact Logic.I|at_ k|sz|sz|].
Ltac ldx adr := eapply (go_load base env fp nat_ junk _ _ adr); [exact Logic.I|ix adr|sz|sz|].
Ltac ldqx adr := eapply (go_loadq base env fp nat_ junk _ _ adr); [exact Logic.I|ix adr|sz|sz|].
Ltac str adr k := eapply (go_store base env fp nat_ junk _ _ adr); [exact Logic.I|at_ k|sz|sz|].
Ltac strx adr := eapply (go_store base env fp nat_ junk _ _ adr); [exact Logic.I|ix adr|sz|sz|].
Ltac strq adr k := eapply (go_storeq base env fp nat_ junk _ _ adr); [exact Logic.I|at_ k|sz|sz|].
Ltac stri adr k := eapply (go_storei base env fp nat_ junk _ _ adr); [exact Logic.I|at_ k|sz|sz|].
Ltac li H := let r' := fresh "r'" in apply lift_inv in H; destruct H as (r' & H & ->); cbn [rts pri alt] in *.
Ltac pure E := cbn [exec] in E; unfold bind, getr, Interp_Model.setr, ret in E; cbn [rts pri alt] in E; rewrite ?sarith_false in E;
  cbn [rts pri alt] in E; injection E as <-.
Ltac fin := apply goes_nil.
Notation goal i c s' := (G c 0%nat x (holds base (fst (leaves i kp ka)) (snd (leaves i kp ka)) s')).

Lemma slot_frame o v r' : is_i32 o -> getFrameValue (so o) r = Ok v r' ->
  0 <= frm r + so o < stp r /\ v = load32 (mem r) (frm r + so o) /\ r' = r.
Proof.
  intros O E. rewrite getFrameValue_eq in E. apply getCell_inv in E; [|exact LAY]. destruct E as (S & -> & ->).
  destruct (slot_addr o O S) as [-> B]. auto.
Qed.
Lemma slot_write o v u r' : is_i32 o -> setFrameValue (so o) v r = Ok u r' ->
  0 <= frm r + so o < stp r /\ r' = set_mem (store32 (mem r) (frm r + so o) v) r.
Proof.
  intros O E. rewrite setFrameValue_eq in E. apply setCell_inv in E; [|exact LAY]. destruct E as (S & ->).
  destruct (slot_addr o O S) as [-> B]. auto.
Qed.
Lemma small z : script_address r z -> u32 z = z /\ 0 <= z < stp r.
Proof. intros [S _]. pose proof sizes. split; [|exact S]. apply u32_small. zl. Qed.
Lemma stk_add n : 0 <= sp r + n < 2 ^ 40 -> u64 (base + sp r + n) = base + (sp r + n).
Proof. intros. rewrite u64_id; [lia|]. zl. Qed.
Lemma stk_sub n : 0 <= sp r - n < 2 ^ 40 -> u64 (base + sp r - n) = base + (sp r - n).
Proof. intros. rewrite u64_id; [lia|]. zl. Qed.

(* ---- Loads, stores, registers ---- *)
Lemma sim_LOAD g o s' : is_i32 o -> X (LOAD g o) s' -> goal (LOAD g o) [ Load L (reg_of g) (At R15 o) ] s'.
Proof.
  intros O E. cbn [exec] in E. xinv E. li E0. apply getCell_inv in E0; [|exact LAY]. destruct E0 as (S & -> & ->).
  pose proof sizes as Z0. destruct S as [S _]. ld o 0. fin. injection E as <-. rewrite EM. destruct g; hold.
Qed.
Lemma sim_LOAD_S g o s' : is_i32 o -> X (LOAD_S g o) s' -> goal (LOAD_S g o) [ Load L (reg_of g) (At RBX (so o)) ] s'.
Proof.
  intros O E. cbn [exec] in E. xinv E. li E0. apply slot_frame in E0; [|exact O]. destruct E0 as (S & -> & ->).
  pose proof sizes as Z0. ld (frm r + so o) (frm r). fin. injection E as <-. rewrite EM. destruct g; hold.
Qed.
Lemma sim_LREF_S g o s' : is_i32 o -> X (LREF_S g o) s' ->
  goal (LREF_S g o) [ Load L (reg_of g) (At RBX (so o)); Load L (reg_of g) (Idx R15 (reg_of g) 1 0) ] s'.
Proof.
  intros O E. cbn [exec] in E. xinv E. li E0. apply slot_frame in E0; [|exact O]. destruct E0 as (S & -> & ->).
  xinv E. li E0. apply getCell_inv in E0; [|exact LAY]. destruct E0 as (S2 & -> & ->). destruct (small _ S2) as [U B].
  pose proof sizes as Z0. ld (frm r + so o) (frm r). rewrite EM. destruct g; ldx (load32 (mem r) (frm r + so o)); fin; injection E as <-; nx; rewrite EM; hold.
Qed.
Lemma check_ok q z n rest P : In q [RAX; RDX] -> xr x q = u32 z -> script_address r z -> n = 4 \/ n = 8 /\ z + 8 <= mem_size r ->
  (forall x', alike x x' -> G rest 0%nat x' P) -> G (emitCheckAddress env q n ++ rest) 0%nat x P.
Proof.
  intros Q0 E S N K. eapply (go_check base env fp nat_ junk US q n z r); eauto using LAY, PIN, MS, ES, ED, EH.
Qed.
Lemma sim_LOAD_I s' : kp = true -> X LOAD_I s' -> goal LOAD_I (emitCheckAddress env RAX 4 ++ [ Load L RAX (Idx R15 RAX 1 0) ]) s'.
Proof.
  intros K E. cbn [exec] in E. xinv E. injection E0 as <- <-. xinv E. li E0. apply getCell_inv in E0; [|exact LAY]. destruct E0 as (S & -> & ->).
  destruct (small _ S) as [U B]. pose proof sizes as Z0. pose proof (EP K) as EPK.
  apply (check_ok RAX p); auto; [cbn; auto|]. intros x' AL. ldx p. { congruence. } fin. injection E as <-. nx. ua. rewrite EM. hold.
Qed.

Lemma sim_LODB_I w s' : kp = true -> X (LODB_I w) s' ->
  goal (LODB_I w) (emitCheckAddress env RAX 4 ++ [ Load L RAX (Idx R15 RAX 1 0) ] ++
            (if w =? 1 then [ AluI L AAnd RAX 255 ] else if w =? 2 then [ AluI L AAnd RAX 65535 ] else [])) s'.
Proof.
  intros K E. cbn [exec] in E. xinv E. injection E0 as <- <-. xinv E. li E0. apply getCell_inv in E0; [|exact LAY]. destruct E0 as (S & -> & ->).
  destruct (small _ S) as [U B]. pose proof sizes as Z0. pose proof (EP K) as EPK.
  apply (check_ok RAX p); auto; [cbn; auto|]. intros x' AL. cbn [app]. ldx p. { congruence. }
  destruct (w =? 1); [|destruct (w =? 2); [|destruct (w =? 4); [|discriminate E]]]; injection E as <-.
  - stepx. fin. nx. ua. rewrite EM. hold. intros _. apply u32_landr.
  - stepx. fin. nx. ua. rewrite EM. hold. intros _. apply u32_landr.
  - fin. nx. ua. rewrite EM. hold.
Qed.
Lemma sim_CONST g v s' : X (CONST g v) s' -> goal (CONST g v) [ MovRI L (reg_of g) v ] s'.
Proof. intros E. pure E. stepx. fin. destruct g; hold. Qed.
Lemma sim_ADDR g o s' : X (ADDR g o) s' -> goal (ADDR g o) [ Load L (reg_of g) (Ctx CFrm); AluI L AAdd (reg_of g) (so o) ] s'.
Proof.
  intros E. cbn [exec] in E. xinv E. li E0. injection E0 as <- <-. unfold Interp_Model.setr in E. cbn [rts pri alt] in E. injection E as <-.
  do 2 stepx. fin. destruct g; hold; intros _; cbn [eval_alu]; rewrite ECF, u32_u32, u32_addr; now rewrite u32_wrap32.
Qed.
Lemma sim_STOR o g s' : (g = Pri -> kp = true) -> (g = Alt -> ka = true) -> is_i32 o -> X (STOR o g) s' -> goal (STOR o g) [ Store L (At R15 o) (reg_of g) ] s'.
Proof.
  intros K1 K2 O E. cbn [exec] in E. xinv E. injection E0 as <- <-. li E. apply setCell_inv in E; [|exact LAY]. destruct E as (S & ->).
  pose proof sizes as Z0. destruct S as [S _]. str o 0. fin. hold. intros z.
  destruct g; cbn [reg_of]; rewrite ?(EP (K1 eq_refl)), ?(EA (K2 eq_refl)), EM, wrap32_of_u32 by first [exact P32|exact A32]; reflexivity.
Qed.
Lemma reg_val g : (g = Pri -> kp = true) -> (g = Alt -> ka = true) ->
  xr x (reg_of g) = u32 (regv (mkIst r p a) g) /\ is_i32 (regv (mkIst r p a) g).
Proof. intros K1 K2. destruct g; cbn [reg_of regv pri alt]; split; auto using EP, EA, P32, A32. Qed.
Lemma sim_STOR_S o g s' : (g = Pri -> kp = true) -> (g = Alt -> ka = true) -> is_i32 o -> X (STOR_S o g) s' ->
  goal (STOR_S o g) [ Store L (At RBX (so o)) (reg_of g) ] s'.
Proof.
  intros K1 K2 O E. cbn [exec] in E. xinv E. injection E0 as <- <-. li E. apply slot_write in E; [|exact O]. destruct E as (S & ->).
  pose proof sizes as Z0. destruct (reg_val g K1 K2) as [RV RI]. str (frm r + so o) (frm r). fin. hold. intros z.
  rewrite RV, EM, wrap32_of_u32 by assumption. reflexivity.
Qed.
Lemma sim_STOR_S_C o v s' : is_i32 o -> is_i32 v -> X (STOR_S_C o v) s' -> goal (STOR_S_C o v) [ StoreI (At RBX (so o)) v ] s'.
Proof.
  intros O V E. cbn [exec] in E. li E. apply slot_write in E; [|exact O]. destruct E as (S & ->).
  pose proof sizes as Z0. stri (frm r + so o) (frm r). fin. hold. intros z. rewrite EM, wrap32_id by assumption. reflexivity.
Qed.
Lemma sim_ZERO_S o s' : is_i32 o -> X (ZERO_S o) s' -> goal (ZERO_S o) [ StoreI (At RBX (so o)) 0 ] s'.
Proof. intros O E. apply (sim_STOR_S_C o 0); auto. unb; lia. Qed.
Lemma sim_SREF_S o g s' : (g = Pri -> kp = true) -> (g = Alt -> ka = true) -> is_i32 o -> X (SREF_S o g) s' ->
  goal (SREF_S o g) [ Load L RCX (At RBX (so o)); Store L (Idx R15 RCX 1 0) (reg_of g) ] s'.
Proof.
  intros K1 K2 O E. cbn [exec] in E. xinv E. li E0. apply slot_frame in E0; [|exact O]. destruct E0 as (S & -> & ->).
  xinv E. injection E0 as <- <-. li E. apply setCell_inv in E; [|exact LAY]. destruct E as (S2 & ->). destruct (small _ S2) as [U B].
  pose proof sizes as Z0. destruct (reg_val g K1 K2) as [RV RI]. ld (frm r + so o) (frm r). rewrite EM. strx (load32 (mem r) (frm r + so o)).
  fin. assert (RV' : xr (setr RCX (u32 (load32 (mem r) (frm r + so o))) x) (reg_of g) = u32 (regv (mkIst r p a) g)) by (destruct g; exact RV).
  rewrite RV'. rewrite wrap32_of_u32 by assumption. hold.
Qed.
Lemma sim_STOR_I s' : kp = true -> ka = true -> X STOR_I s' -> goal STOR_I (emitCheckAddress env RDX 4 ++ [ Store L (Idx R15 RDX 1 0) RAX ]) s'.
Proof.
  intros K1 K2 E. cbn [exec] in E. xinv E. injection E0 as <- <-. xinv E. injection E0 as <- <-. li E.
  apply setCell_inv in E; [|exact LAY]. destruct E as (S & ->). destruct (small _ S) as [U B]. pose proof sizes as Z0.
  pose proof (EP K1) as EPK. pose proof (EA K2) as EAK.
  apply (check_ok RDX a); auto; [cbn; auto|]. intros x' AL. strx a. { congruence. } fin. ua. rewrite EPK, wrap32_of_u32 by exact P32. hold.
Qed.
Lemma sim_STRB_I w s' : kp = true -> ka = true -> w <> 2 -> X (STRB_I w) s' ->
  goal (STRB_I w) (emitCheckAddress env RDX 4 ++
            (if w =? 1 then [ StoreB (Idx R15 RDX 1 0) RAX ]
             else if w =? 2 then [ Store L (Idx R15 RDX 1 0) RAX ]
             else if w =? 4 then [ Store L (Idx R15 RDX 1 0) RAX ] else [])) s'.
Proof.
  intros K1 K2 W E. cbn [exec] in E. xinv E. injection E0 as <- <-. xinv E. injection E0 as <- <-. xinv E. li E0.
  apply tiba_inv in E0. destruct E0 as (S & -> & ->). destruct (small _ S) as [U B]. pose proof sizes as Z0.
  pose proof (EP K1) as EPK. pose proof (EA K2) as EAK.
  apply (check_ok RDX a); auto; [cbn; auto|]. intros x' AL.
  replace (w =? 2) with false in * by lia. destruct (w =? 1); [|destruct (w =? 4); [|discriminate E]]; li E.
  - unfold wr8 in E. rewrite in_mem_true in E by zl. injection E as <-.
    eapply goes_cons; [reflexivity| |]. { cbn [xexec]. rewrite (ea_idx base US _ _ a); [|ua; exact ED|ua; congruence|zl]. rewrite ok_at_true by sz. reflexivity. }
    fin. ua. rewrite EPK. hold. intros z. rewrite EM. replace (base + a - base) with a by lia.
    now rewrite mod_u32.
  - apply wr32_inv in E. destruct E as (_ & _ & ->). strx a. { congruence. } fin. ua. rewrite EPK, wrap32_of_u32 by exact P32. hold.
Qed.
Lemma sim_IDXADDR s' : kp = true -> ka = true -> 0 <= u32 a + 4 * p < two32 -> X IDXADDR s' ->
  goal IDXADDR [ Movsxd RAX RAX; Lea RAX (Idx RDX RAX 4 0) ] s'.
Proof.
  intros K1 K2 H E. pure E. do 2 stepx. fin. hold. intros _. cbn [ea xr setr gpr_eqb]. rewrite (EP K1), (EA K2), wrap32_of_u32 by exact P32.
  pose proof (u32_bounds a).
  rewrite lea4, u64_id by zl. rewrite u32_wrap32. rewrite <- (u32_small (u32 a + 4 * p)) by zl. rewrite u32_addr. f_equal. lia.
Qed.
Lemma sim_MOVE g s' : X (MOVE g) s' -> goal (MOVE g) (match g with Pri => [ MovRR Q RAX RDX ] | Alt => [ MovRR Q RDX RAX ] end) s'.
Proof.
  intros E. destruct g; pure E; stepx; fin; hold; intros K.
  - rewrite (EA K). apply u64_u32.
  - rewrite (EP K). apply u64_u32.
Qed.
Lemma sim_XCHG s' : X XCHG s' -> goal XCHG [ Xchg RAX RDX ] s'.
Proof. intros E. pure E. stepx. fin. hold. Qed.

(* ---- The stack ---- *)
Lemma sim_PUSHR g s' : (g = Pri -> kp = true) -> (g = Alt -> ka = true) -> X (PUSHR g) s' ->
  goal (PUSHR g) [ Store L (At R14 (-4)) (reg_of g); AluI Q ASub R14 4 ] s'.
Proof.
  intros K1 K2 E. cbn [exec] in E. xinv E. injection E0 as <- <-. li E. apply push_inv in E; [|exact INB]. destruct E as (S & ->).
  pose proof sizes as Z0. destruct (reg_val g K1 K2) as [RV RI]. str (sp r - 4) (sp r). rewrite RV, wrap32_of_u32, EM by assumption. stepx. fin. hold.
  cbn [eval_alu]. rewrite ES. apply stk_sub. zl.
Qed.
Lemma sim_POP g s' : X (POP g) s' -> goal (POP g) [ Load L (reg_of g) (At R14 0); AluI Q AAdd R14 4 ] s'.
Proof.
  intros E. cbn [exec] in E. xinv E. li E0. apply pop_inv in E0; [|exact INB]. destruct E0 as (S & -> & ->).
  pose proof sizes as Z0. ld (sp r) (sp r). stepx. fin. injection E as <-. rewrite EM. destruct g; hold; cbn [eval_alu]; rewrite ES; apply stk_add; zl.
Qed.
Lemma sim_STACK n s' : is_i32 n -> n + mem_size r < two31 -> X (STACK n) s' -> goal (STACK n) [ AluI Q AAdd R14 n ] s'.
Proof.
  intros N M E. cbn [exec] in E. li E. pose proof sizes as Z0. unfold addStack, bind, get, put in E.
  rewrite (wrap32_id (sp r + n)) in E by zl. rewrite (wrap32_id (hp r + STACK_MARGIN)) in E by (unfold STACK_MARGIN; zl).
  assert (H : 0 <= sp r + n /\ r' = set_sp (sp r + n) r).
  { destruct (n <? 0) eqn:N0; unfold throw_if in E.
    - destruct (sp r + n <? hp r + STACK_MARGIN) eqn:C; [discriminate|]. injection E as <-. unfold STACK_MARGIN in C. split; [lia|reflexivity].
    - destruct (sp r + n >? stp r) eqn:C; [discriminate|]. injection E as <-. split; [lia|reflexivity]. }
  destruct H as [H ->]. stepx. fin. hold. cbn [eval_alu]. rewrite ES. apply stk_add. zl.
Qed.

Lemma moved_end (l : list Z) m x1 : moved x x1 -> 0 <= sp r - 4 * Z.of_nat (length l) -> xm x1 = m ->
  G [ AluI Q ASub R14 (4 * Z.of_nat (length l)) ] 0%nat x1 (holds base kp ka (mkIst (set_mem m (set_sp (sp r - 4 * Z.of_nat (length l)) r)) p a)).
Proof.
  intros (M1 & M2 & M3) B E1. pose proof sizes as Z0. stepx. fin. constructor; nx; rewrite ?M1, ?M2, ?M3 by discriminate;
  first [ exact EF | exact ED | exact EH | exact ECF | exact ESC | exact EX | exact EP | exact EA | idtac ].
  - cbn [eval_alu]. rewrite ES. apply stk_sub. zl.
  - intros z. now rewrite E1.
Qed.
Lemma sim_PUSH_C l s' : Forall is_i32 l -> X (PUSH_C l) s' -> goal (PUSH_C l) (pushes_c 1 l ++ [ AluI Q ASub R14 (4 * Z.of_nat (length l)) ]) s'.
Proof.
  intros FL E. cbn [exec] in E. li E. pose proof sizes as Z0. apply goes_app.
  eapply goes_weak; [|apply (pushes_c_go base env fp nat_ junk US l 1 r x r' FL INB MS); [rewrite ES; lia|lia|zl|exact EM|exact E]].
  intros x1 (M & X1 & m & -> & B). apply moved_end; auto.
Qed.
Lemma pushm_frame l : forall r0, push_frame mi l r0 = pushm (fun o => getFrameValue (so o)) l r0.
Proof.
  induction l as [|o l IH]; intros r0; [reflexivity|]. cbn [push_frame pushm]. unfold Interp_Model.so. unfold bind at 1 3.
  destruct (getFrameValue (so o) r0) as [v r1| |]; [|reflexivity..]. unfold bind. destruct (pushStack v r1) as [[] r2| |]; [|reflexivity..]. apply IH.
Qed.
Lemma pushm_adr l : forall r0, push_adr mi l r0 = pushm (fun o s => Ok (wrap32 (frm s + so o)) s) l r0.
Proof.
  induction l as [|o l IH]; intros r0; [reflexivity|]. cbn [push_adr pushm]. unfold Interp_Model.so. unfold bind, get.
  destruct (pushStack (wrap32 (frm r0 + so o)) r0) as [[] r2| |]; [|reflexivity..]. apply IH.
Qed.
Lemma sim_PUSH_S l s' : Forall is_i32 l -> X (PUSH_S l) s' ->
  goal (PUSH_S l) (pushes 1 (fun o => [ Load L RCX (At RBX (so o)) ]) l ++ [ AluI Q ASub R14 (4 * Z.of_nat (length l)) ]) s'.
Proof.
  intros FL E. cbn [exec] in E. li E. rewrite pushm_frame in E. pose proof sizes as Z0. apply goes_app.
  eapply goes_weak; [|apply (pushes_go base env fp nat_ junk US (fun o => getFrameValue (so o)) (fun o => [ Load L RCX (At RBX (so o)) ])
     is_i32 (frm r) (base + frm r) base) with (r := r) (r1 := r')].
  - intros x1 (M & X1 & m & -> & B). apply moved_end; auto.
  - intros o r0 y v r1 O IB F0 M0 FR Y1 Y2 Y3 G0. rewrite getFrameValue_eq in G0. destruct IB as [LL PP].
    apply getCell_inv in G0; [|exact LL]. destruct G0 as (S & -> & ->). split; [reflexivity|]. split; [apply load32_range|].
    destruct (slot_addr_of r0 (so o) LL FR (so_i32 mi o ST O) S) as [-> B]. destruct LL.
    eapply (go_load base env fp nat_ junk _ _ (frm r0 + so o)); [exact Logic.I| |zl|zl|].
    { rewrite (ea_at base US _ _ _ (frm r0)); [reflexivity|congruence|zl]. }
    fin. split; [|nx; rewrite Y3; apply wrap32_of_u32, load32_range]. split; [|repeat split]. intros q Q0. destruct q; try reflexivity. contradiction.
  - exact FL.
  - exact INB.
  - exact MS.
  - reflexivity.
  - lia.
  - exact EF.
  - exact ED.
  - rewrite ES. lia.
  - lia.
  - zl.
  - exact EM.
  - exact E.
Qed.
Lemma sim_PUSH_ADR l s' : Forall is_i32 l -> X (PUSH_ADR l) s' ->
  goal (PUSH_ADR l) ([ Alu Q ASub RBX R15 ] ++ pushes 1 (fun o => [ Lea RCX (At RBX (so o)) ]) l ++
            [ AluI Q ASub R14 (4 * Z.of_nat (length l)); Alu Q AAdd RBX R15 ]) s'.
Proof.
  intros FL E. cbn [exec] in E. li E. rewrite pushm_adr in E. pose proof sizes as Z0. cbn [app]. stepx.
  assert (EB : u64 (xr x RBX - xr x R15) = frm r) by (rewrite EF, ED, u64_id; [lia|zl]).
  apply goes_app.
  eapply goes_weak; [|apply (pushes_go base env fp nat_ junk US (fun o s => Ok (wrap32 (frm s + so o)) s) (fun o => [ Lea RCX (At RBX (so o)) ])
     is_i32 (frm r) (frm r) base) with (r := r) (r1 := r')].
  - intros x1 ((M1 & M2 & M3) & X1 & m & -> & B). wsimp. do 2 stepx. fin. constructor; nx; rewrite ?M1, ?M2, ?M3 by discriminate; nx;
    first [ exact EF | exact ED | exact EH | exact ECF | exact ESC | exact EX | exact EP | exact EA | idtac ].
    + cbn [eval_alu]. rewrite EB, ED. rewrite u64_id; [lia|zl].
    + cbn [eval_alu]. rewrite ES. apply stk_sub. zl.
    + intros z. now rewrite X1.
  - intros o r0 y v r1 O IB F0 M0 FR Y1 Y2 Y3 G0. injection G0 as <- <-. split; [reflexivity|]. split; [apply wrap32_range|].
    stepx. fin. split; [|nx; cbn [ea]; rewrite Y1, F0; apply wrap32_u64]. split; [|repeat split]. intros q Q0. destruct q; try reflexivity. contradiction.
  - exact FL.
  - exact INB.
  - exact MS.
  - reflexivity.
  - lia.
  - exact EB.
  - nx. exact ED.
  - nx. rewrite ES. lia.
  - lia.
  - zl.
  - nx. exact EM.
  - exact E.
Qed.

(* ---- Arithmetic ---- *)
Ltac bin K1 K2 lem := let E := fresh in intros E; pure E; stepx; fin; hold; intros _; cbn [eval_alu]; rewrite (EP K1), (EA K2), lem; rewrite ?u32_wrap32; reflexivity.
Ltac un K1 lem := let E := fresh in intros E; pure E; stepx; fin; hold; intros _; cbn [eval_alu]; rewrite (EP K1), lem; rewrite ?u32_wrap32; reflexivity.
Lemma sim_ADD s' (K1 : kp = true) (K2 : ka = true) : X ADD s' -> goal ADD [ Alu L AAdd RAX RDX ] s'.
Proof. bin K1 K2 u32_add. Qed.
Lemma sim_AND s' (K1 : kp = true) (K2 : ka = true) : X AND s' -> goal AND [ Alu L AAnd RAX RDX ] s'.
Proof. bin K1 K2 u32_land. Qed.
Lemma sim_OR s' (K1 : kp = true) (K2 : ka = true) : X OR s' -> goal OR [ Alu L AOr RAX RDX ] s'.
Proof. bin K1 K2 u32_lor. Qed.
Lemma sim_XOR s' (K1 : kp = true) (K2 : ka = true) : X XOR s' -> goal XOR [ Alu L AXor RAX RDX ] s'.
Proof. bin K1 K2 u32_lxor. Qed.
Lemma sim_SMUL s' (K1 : kp = true) (K2 : ka = true) : X SMUL s' -> goal SMUL [ Imul L RAX RDX ] s'.
Proof. bin K1 K2 u32_mul. Qed.
Lemma sim_NEG s' (K1 : kp = true) : X NEG s' -> goal NEG [ Neg L RAX ] s'.
Proof. un K1 u32_opp. Qed.
Lemma sim_INVERT s' (K1 : kp = true) : X INVERT s' -> goal INVERT [ Not L RAX ] s'.
Proof. un K1 u32_lnot. Qed.
Lemma sim_ADD_C v s' (K1 : kp = true) : X (ADD_C v) s' -> goal (ADD_C v) [ AluI L AAdd RAX v ] s'.
Proof. un K1 u32_addr. Qed.
Lemma sim_SMUL_C v s' (K1 : kp = true) : X (SMUL_C v) s' -> goal (SMUL_C v) [ ImulI RAX RAX v ] s'.
Proof. un K1 u32_mulr. Qed.
Lemma sim_SUB_ALT s' (K1 : kp = true) (K2 : ka = true) : X SUB_ALT s' -> goal SUB_ALT [ MovRR L RCX RDX; Alu L ASub RCX RAX; MovRR L RAX RCX ] s'.
Proof. intros E. pure E. do 3 stepx. fin. hold. intros _. cbn [eval_alu]. rewrite (EP K1), (EA K2), !u32_u32, u32_sub, u32_wrap32. reflexivity. Qed.
Lemma sim_ZEROR g s' : X (ZEROR g) s' -> goal (ZEROR g) [ Alu L AXor (reg_of g) (reg_of g) ] s'.
Proof. intros E. pure E. stepx. fin. destruct g; hold; intros _; cbn [eval_alu]; now rewrite Z.lxor_nilpotent. Qed.
Lemma sim_INCR g s' : (g = Pri -> kp = true) -> (g = Alt -> ka = true) -> X (INCR g) s' -> goal (INCR g) [ AluI L AAdd (reg_of g) 1 ] s'.
Proof.
  intros K1 K2 E. pure E. stepx. fin. destruct (reg_val g K1 K2) as [RV RI]. rewrite RV. cbn [eval_alu mask]. rewrite u32_addr.
  destruct g; hold; intros _; now rewrite u32_wrap32.
Qed.
Lemma sim_DECR g s' : (g = Pri -> kp = true) -> (g = Alt -> ka = true) -> X (DECR g) s' -> goal (DECR g) [ AluI L ASub (reg_of g) 1 ] s'.
Proof.
  intros K1 K2 E. pure E. stepx. fin. destruct (reg_val g K1 K2) as [RV RI]. rewrite RV. cbn [eval_alu mask]. rewrite u32_subr.
  destruct g; hold; intros _; now rewrite u32_wrap32.
Qed.
Lemma sim_STRADJUST s' (K1 : kp = true) : X STRADJUST_PRI s' -> goal STRADJUST_PRI [ AluI L AAdd RAX 4; ShiftI L SSar RAX 2 ] s'.
Proof.
  intros E. pure E. do 2 stepx. fin. hold. intros _. cbn [eval_alu eval_shift width signed]. change (2 mod 32) with 2.
  rewrite (EP K1), u32_addr, wrap32_u32. reflexivity.
Qed.
Lemma sim_NOT s' (K1 : kp = true) : X NOT s' -> goal NOT [ Test L RAX RAX; MovRI L RAX 0; SetAl equal ] s'.
Proof.
  intros E. pure E. do 3 stepx. fin. hold. intros _. rewrite setal_zero, b2z_u32. f_equal. cbn [cond test_flags zf mask].
  rewrite (EP K1), Z.land_diag, u32_u32. pose proof P32. unfold u32. destruct (p =? 0) eqn:P0.
  - replace p with 0 by lia. reflexivity.
  - apply Z.eqb_neq. intros C. apply Z.mod_divide in C; [|discriminate]. destruct C as [k C]. zl.
Qed.
Lemma sim_CMP c s' (K1 : kp = true) (K2 : ka = true) : match c with Zero | NotZero => False | _ => True end ->
  X (CMP c) s' -> goal (CMP c) [ Cmp L RAX RDX; MovRI L RAX 0; SetAl (OpToCondition c) ] s'.
Proof.
  intros C E. pure E. do 3 stepx. fin. hold. intros _. rewrite setal_zero, b2z_u32. f_equal. rewrite (EP K1), (EA K2).
  destruct (cmp32 (u32 p) (u32 a) p a P32 A32 (u32_u32 p) (u32_u32 a)) as (F1 & F2 & _). now apply eval_cond.
Qed.
Lemma sim_EQ_C g v s' : (g = Pri -> kp = true) -> (g = Alt -> ka = true) -> is_i32 v -> X (EQ_C g v) s' ->
  goal (EQ_C g v) [ CmpI L (reg_of g) v; MovRI L RAX 0; SetAl equal ] s'.
Proof.
  intros K1 K2 V E. destruct (reg_val g K1 K2) as [RV RI]. pure E. do 3 stepx. fin. hold. intros _. rewrite setal_zero, b2z_u32. f_equal. rewrite RV.
  destruct (cmp32 (u32 (regv (mkIst r p a) g)) v _ v RI V (u32_u32 _) eq_refl) as (F1 & F2 & _). exact F1.
Qed.
Lemma sim_SHL s' (K1 : kp = true) (K2 : ka = true) : X SHL s' -> goal SHL [ MovRR L RCX RDX; ShiftCl L SShl RAX ] s'.
Proof.
  intros E. cbn [exec] in E. xinv E. injection E0 as <- <-. xinv E. injection E0 as <- <-. xinv E. unfold shl32 in E0. cbn [regv pri alt] in *.
  destruct ((0 <=? a) && (a <? 32)) eqn:C; [|discriminate E0]. injection E0 as <- <-. injection E as <-.
  do 2 stepx. fin. hold. intros _. cbn [eval_shift width]. rewrite (EP K1), (EA K2), count32 by lia. cbn [mask]. rewrite u32_u32, shl_32 by lia. now rewrite u32_wrap32.
Qed.
Lemma sim_SHR s' (K1 : kp = true) (K2 : ka = true) : X SHR s' -> goal SHR [ MovRR L RCX RDX; ShiftCl L SShr RAX ] s'.
Proof.
  intros E. cbn [exec] in E. xinv E. injection E0 as <- <-. xinv E. injection E0 as <- <-. xinv E. unfold shr32 in E0. cbn [regv pri alt] in *.
  destruct ((0 <=? a) && (a <? 32)) eqn:C; [|discriminate E0]. injection E0 as <- <-. injection E as <-.
  do 2 stepx. fin. hold. intros _. cbn [eval_shift width]. rewrite (EP K1), (EA K2), count32 by lia. cbn [mask]. now rewrite u32_u32, u32_wrap32.
Qed.
Lemma sim_SSHR s' (K1 : kp = true) (K2 : ka = true) : X SSHR s' -> goal SSHR [ MovRR L RCX RDX; ShiftCl L SSar RAX ] s'.
Proof.
  intros E. cbn [exec] in E. xinv E. injection E0 as <- <-. xinv E. injection E0 as <- <-. xinv E. unfold sshr32 in E0. cbn [regv pri alt] in *.
  destruct ((0 <=? a) && (a <? 32)) eqn:C; [|discriminate E0]. injection E0 as <- <-. injection E as <-.
  do 2 stepx. fin. hold. intros _. cbn [eval_shift width]. rewrite (EP K1), (EA K2), count32 by lia. cbn [signed]. rewrite wrap32_of_u32 by exact P32. reflexivity.
Qed.
Lemma sim_SHL_C g n s' : (g = Pri -> kp = true) -> (g = Alt -> ka = true) -> X (SHL_C g n) s' -> goal (SHL_C g n) [ ShiftI L SShl (reg_of g) n ] s'.
Proof.
  intros K1 K2 E. cbn [exec] in E. xinv E. injection E0 as <- <-. xinv E. unfold shl32 in E0.
  destruct ((0 <=? n) && (n <? 32)) eqn:C; [|discriminate E0]. injection E0 as <- <-. injection E as <-. destruct (reg_val g K1 K2) as [RV RI].
  stepx. fin. rewrite RV. cbn [eval_shift width mask]. rewrite Z.mod_small, u32_u32, shl_32 by lia. destruct g; hold; intros _; now rewrite u32_wrap32.
Qed.
Lemma sim_BOUNDS n s' (K1 : kp = true) : is_i32 n -> X (BOUNDS n) s' -> goal (BOUNDS n) [ CmpI L RAX n; JErr above (err_code ARRAY_BOUNDS) ] s'.
Proof.
  intros N E. cbn [exec] in E. xinv E. injection E0 as <- <-. cbn [regv pri alt] in E. destruct (u64 p >? u32 n) eqn:C; [discriminate E|]. injection E as <-.
  destruct (cmp32 (u32 p) n p n P32 N (u32_u32 _) eq_refl) as (F1 & F2 & F3). stepx. eapply go_cc; [reflexivity| |fin; hold].
  nx. rewrite (EP K1). cbn [cond]. rewrite F1, F3. pose proof (u32_bounds n). pose proof P32.
  now rewrite (above_u64 p n P32 N C).
Qed.
Lemma sim_SWAP g s' : (g = Pri -> kp = true) -> (g = Alt -> ka = true) -> X (SWAP g) s' ->
  goal (SWAP g) [ Load L RCX (At R14 0); Store L (At R14 0) (reg_of g); MovRR L (reg_of g) RCX ] s'.
Proof.
  intros K1 K2 E. destruct (reg_val g K1 K2) as [RV RI]. cbn [exec] in E. xinv E. injection E0 as <- <-. xinv E. li E0.
  apply pop_inv in E0; [|exact INB]. destruct E0 as (S & -> & ->). xinv E. injection E0 as _ <-.
  pose proof sizes as Z0. ld (sp r) (sp r). rewrite EM. str (sp r) (sp r).
  assert (RV' : xr (setr RCX (u32 (load32 (mem r) (sp r))) x) (reg_of g) = u32 (regv (mkIst r p a) g)) by (destruct g; exact RV).
  rewrite RV', wrap32_of_u32 by assumption. nx. rewrite EM. stepx. fin. li E.
  assert (IB : in_bounds (set_sp (sp r + 4) r)). { destruct INB as [[] []]. split; constructor; wsimp; auto. lia. }
  destruct g; cbn [rts] in E; (apply push_inv in E; [|exact IB]; destruct E as (S2 & ->); nx; replace (sp r + 4 - 4) with (sp r) by lia; hold; intros _; now rewrite u32_u32).
Qed.

(* ---- Division ---- *)
Definition kept x x' := xr x' RBX = xr x RBX /\ xr x' R14 = xr x R14 /\ xr x' R15 = xr x R15 /\ xc x' = xc x /\ xm x' = xm x /\ exn x' = exn x.
Lemma check_div_inv d v s s' : check_div d v s = Ok tt s' -> v <> 0 /\ ~ (v = -1 /\ d = - two31) /\ s' = s.
Proof.
  unfold check_div, fail, ret. destruct (v =? 0) eqn:V; [discriminate|]. destruct ((v =? -1) && (d =? - two31)) eqn:O; [discriminate|].
  intros [= <-]. split; [lia|]. split; [lia|reflexivity].
Qed.
Lemma div_go g d v rest P : xr x (reg_of g) = u32 d -> xr x (reg_of (match g with Pri => Alt | Alt => Pri end)) = u32 v ->
  is_i32 d -> is_i32 v -> v <> 0 -> ~ (v = -1 /\ d = - two31) ->
  (forall x', kept x x' -> xr x' RAX = u32 (Z.quot d v) -> xr x' RDX = u32 (Z.rem d v) -> G rest 0%nat x' P) ->
  G (emitSDIV g ++ rest) 0%nat x P.
Proof.
  intros ED' EV D V V0 OV K. unfold emitSDIV. cbn [app].
  destruct (quot_range two31 d v ltac:(unfold two31; lia) ltac:(zl) V0 OV) as [QR RR].
  assert (TZ : zf (test_flags L (u32 v) (u32 v)) = false).
  { cbn [test_flags zf mask]. rewrite Z.land_diag, u32_u32. apply Z.eqb_neq. intros C. apply V0. rewrite <- (wrap32_of_u32 v V), C. reflexivity. }
  destruct (cmp32 (u32 v) (-1) v (-1) V ltac:(unb; lia) (u32_u32 v) eq_refl) as (C1 & _ & _).
  destruct (cmp32 (u32 d) (- two31) d (- two31) D ltac:(unb; lia) (u32_u32 d) eq_refl) as (C2 & _ & _).
  assert (Q0 : wrap32 (Z.quot d v) = Z.quot d v) by (apply wrap32_id; zl).
  pose proof (sext32 d D) as SX. rewrite !u32_u32 in SX.
  assert (TAIL : forall y, kept x y -> xr y (reg_of g) = u32 d -> xr y (reg_of (match g with Pri => Alt | Alt => Pri end)) = u32 v ->
    G ([ MovRR L RCX (reg_of (match g with Pri => Alt | Alt => Pri end)); MovRR L (match g with Pri => RDX | Alt => RAX end) (reg_of g);
         ShiftI L SSar RDX 31; Idiv L RCX ] ++ rest) 0%nat y P).
  { intros y KY Y1 Y2. cbn [app]. destruct g; cbn [reg_of] in *; (do 3 stepx; eapply goes_cons; [reflexivity| |];
    [ cbn [xexec]; unfold flagless; nx; rewrite ?Y1, ?Y2; cbn [eval_shift width signed mask]; rewrite ?u32_u32;
      change (31 mod 32) with 31; rewrite ?SX; rewrite ?(wrap32_of_u32 v V);
      replace (v =? 0) with false by lia; rewrite Q0, Z.eqb_refl; cbn [negb orb]; reflexivity
    | apply K; nx; [|reflexivity..]; destruct KY as (Y3 & Y4 & Y5 & Y6 & Y7 & Y8); repeat split; nx; assumption ]). }
  stepx. eapply go_cc; [reflexivity|nx; cbn [cond]; rewrite EV; exact TZ|]. stepx. eapply goes_jump; [reflexivity|].
  nx. cbn [cond]. rewrite EV, C1. destruct (v =? -1) eqn:V1; cbn [negb].
  - stepx. eapply go_cc; [reflexivity|nx; cbn [cond]; rewrite ED', C2; lia|]. apply TAIL; nx; auto. repeat split.
  - do 2 apply goes_skip. apply TAIL; nx; auto. repeat split.
Qed.
Ltac kp KX := destruct KX as (KB & K14 & K15 & KC & KM & KE); constructor; nx; rewrite ?KB, ?K14, ?K15, ?KC, ?KM, ?KE;
  first [ exact EF | exact ES | exact ED | exact EH | exact ECF | exact ESC | exact EX | (let z := fresh in intros z; rewrite ?EM; reflexivity) | idtac ].
Lemma sim_SDIV g s' (K1 : kp = true) (K2 : ka = true) : X (SDIV g) s' -> goal (SDIV g) (emitSDIV g) s'.
Proof.
  intros E. cbn [exec] in E. xinv E. injection E0 as <- <-. xinv E. injection E0 as <- <-. xinv E. destruct v.
  apply check_div_inv in E0. destruct E0 as (V & O & ->). injection E as <-. rewrite <- (app_nil_r (emitSDIV g)).
  pose proof P32. pose proof A32. pose proof (EP K1). pose proof (EA K2). cbn [regv pri alt] in *.
  destruct g; (eapply div_go; [cbn [reg_of]; eassumption..|]; intros x' KX R1 R2; fin; kp KX; auto).
Qed.
Lemma sim_SDIV_ALT s' (K1 : kp = true) (K2 : ka = true) : X SDIV_ALT_I32 s' -> goal SDIV_ALT_I32 (emitSDIV Alt) s'.
Proof.
  intros E. cbn [exec] in E. xinv E. injection E0 as <- <-. xinv E. injection E0 as <- <-. xinv E. destruct v.
  apply check_div_inv in E0. destruct E0 as (V & O & ->). injection E as <-. rewrite <- (app_nil_r (emitSDIV Alt)).
  pose proof P32. pose proof A32. pose proof (EP K1). pose proof (EA K2). cbn [regv pri alt] in *.
  eapply div_go; [cbn [reg_of]; eassumption..|]; intros x' KX R1 R2; fin; kp KX; auto. discriminate.
Qed.
Lemma sim_SMOD_ALT s' (K1 : kp = true) (K2 : ka = true) : X SMOD_ALT_I32 s' -> goal SMOD_ALT_I32 (emitSDIV Alt ++ [ MovRR L RAX RDX ]) s'.
Proof.
  intros E. cbn [exec] in E. xinv E. injection E0 as <- <-. xinv E. injection E0 as <- <-. xinv E. destruct v.
  apply check_div_inv in E0. destruct E0 as (V & O & ->). injection E as <-.
  pose proof P32. pose proof A32. pose proof (EP K1). pose proof (EA K2). cbn [regv pri alt] in *.
  eapply div_go; [cbn [reg_of]; eassumption..|]; intros x' KX R1 R2; stepx; fin; kp KX; auto.
  - intros _. rewrite R2. apply u32_u32.
  - discriminate.
Qed.

(* ---- The heap ---- *)
Lemma heap_inv n v r' : is_i32 n -> n + mem_size r + 64 < two31 -> heapAlloc n r = Ok v r' ->
  v = hp r /\ r' = set_hp (hp r + n) r /\ (if n <? 0 then data_size r <= hp r + n else hp r + n + 64 <= sp r).
Proof.
  intros N B E. pose proof sizes as Z0. rewrite heapAlloc_eq in E; [|exact INB|split; zl].
  destruct (n <? 0).
  - destruct (hp r + n <? data_size r) eqn:C; [discriminate E|]. injection E as <- <-. split; [reflexivity|]. split; [reflexivity|lia].
  - destruct (hp r + n + 64 >? sp r) eqn:C; [discriminate E|]. injection E as <- <-. split; [reflexivity|]. split; [reflexivity|lia].
Qed.
Lemma heap_go n rest P : is_i32 n -> one_window base r -> (if n <? 0 then data_size r <= hp r + n else hp r + n + 64 <= sp r) ->
  (forall x', (forall q, q <> RCX -> q <> RDX -> xr x' q = xr x q) -> xr x' RDX = u32 (hp r) ->
     (forall f, xc x' f = match f with CHp => u32 (hp r + n) | _ => xc x f end) -> xm x' = xm x -> exn x' = exn x -> xpush x' = xpush x -> G rest 0%nat x' P) ->
  G (emitHEAP env n ++ rest) 0%nat x P.
Proof.
  intros N W B K. pose proof sizes as Z0. unfold emitHEAP. assert (DS : data_size env = data_size r) by (symmetry; apply SP).
  assert (E1 : u32 (u32 (hp r) + n) = hp r + n). { rewrite u32_addr. apply u32_small. destruct (n <? 0) eqn:C; zl. }
  destruct (n <? 0) eqn:NS; cbn [app].
  - do 2 stepx. stepx. eapply go_cc; [reflexivity| |].
    + nx. cbn [load cond cmp_flags cf mask]. nx. rewrite EH, E1, !DS, !u32_u32.
      rewrite !u32_small by zl. lia.
    + apply K; nx; auto.
      * intros q Q1 Q2. destruct q; auto; contradiction.
      * rewrite EH. apply u32_u32.
      * intros []; cbn [cfield_eqb]; auto. rewrite EH, E1. symmetry. apply u32_small. zl.
  - do 2 stepx. do 3 stepx. eapply go_cc; [reflexivity| |].
    + nx. cbn [ea]. nx. cbn [load cfield_eqb xc setc]. nx. rewrite EH, E1, ED, ES. rewrite u32_small by zl.
      replace (base + (hp r + n) * 1 + STACK_MARGIN) with (base + (hp r + n + 64)) by (unfold STACK_MARGIN; lia).
      apply window_above; [|zl]. unfold one_window in W. zl.
    + apply K; nx; auto.
      * intros q Q1 Q2. destruct q; auto; contradiction.
      * rewrite EH. apply u32_u32.
      * intros []; cbn [cfield_eqb]; auto. rewrite EH, E1. symmetry. apply u32_small. zl.
Qed.
Lemma sim_HEAP n s' : is_i32 n -> n + mem_size r + 64 < two31 -> one_window base r -> X (HEAP n) s' -> goal (HEAP n) (emitHEAP env n) s'.
Proof.
  intros N B W E. cbn [exec] in E. xinv E. li E0. apply heap_inv in E0; auto. destruct E0 as (-> & -> & C). injection E as <-.
  rewrite <- (app_nil_r (emitHEAP env n)). apply heap_go; auto. intros x' F1 F2 F3 F4 F5 _. fin.
  constructor; nx; rewrite ?F1, ?F2, ?F3, ?F4, ?F5 by discriminate;
  first [ exact EF | exact ES | exact ED | exact ECF | exact ESC | exact EX | exact EP | reflexivity | (let z := fresh in intros z; rewrite EM; reflexivity) | auto ].
Qed.
Lemma sim_HEAP_SAVE s' : one_window base r -> X HEAP_SAVE s' ->
  goal HEAP_SAVE (emitHEAP env 4 ++ [ Load L RAX (Ctx CScope); Store L (Idx R15 RDX 1 0) RAX; Store L (Ctx CScope) RDX ]) s'.
Proof.
  intros W E. pose proof sizes as Z0. cbn [exec] in E. li E. unfold enterHeapScope in E. xinv E. injection E0 as <- <-. xinv E.
  apply heap_inv in E0; [|zl..]. destruct E0 as (-> & -> & C). cbn [Z.ltb Z.compare] in C. xinv E. injection E0 as _ <-. xinv E. apply tiba_inv in E0.
  destruct E0 as (S & -> & ->). apply wr32_inv in E. destruct E as (_ & _ & ->).
  apply heap_go; auto; [zl|]. intros x' F1 F2 F3 F4 F5 _. stepx. rewrite F3.
  eapply (go_store base env fp nat_ junk _ _ (hp r)); [exact Logic.I|rewrite (ea_idx base US _ _ (hp r)); [reflexivity|nx; rewrite F1 by discriminate; exact ED|nx; rewrite F2; apply u32_small; zl|zl]|zl|sz|].
  stepx. fin. constructor; nx; rewrite ?F1, ?F2, ?F3, ?F4, ?F5 by discriminate; cbn [cfield_eqb fst snd leaves];
  first [ exact EF | exact ES | exact ED | exact ECF | exact EX | discriminate | reflexivity | idtac ].
  - apply u32_u32.
  - intros z. cbn [mask]. rewrite EM, ESC, u32_u32, wrap32_of_u32 by apply Z0. reflexivity.
Qed.
Lemma sim_HEAP_RESTORE s' : X HEAP_RESTORE s' ->
  goal HEAP_RESTORE [ Load L RCX (Ctx CScope); Load L RDX (Idx R15 RCX 1 0); Store L (Ctx CHp) RCX; Store L (Ctx CScope) RDX ] s'.
Proof.
  intros E. pose proof sizes as Z0. cbn [exec] in E. li E. unfold leaveHeapScope in E. xinv E. injection E0 as <- <-. xinv E.
  apply tiba_inv in E0. destruct E0 as (S & -> & ->). xinv E. apply rd32_inv in E0. destruct E0 as (B1 & B2 & -> & ->).
  xinv E. injection E0 as _ <-. xinv E. injection E0 as _ <-.
  assert (r' = set_hp_scope (load32 (mem r) (hp_scope r)) (set_hp (hp_scope r) r)) as ->.
  { destruct (load32 (mem r) (hp_scope r) =? -1); [injection E as <-; reflexivity|]. xinv E. injection E as <-. apply tiba_inv in E0. apply E0. }
  stepx. nx. rewrite ESC. cbn [mask]. rewrite u32_u32. destruct (small _ S) as [U B]. ldx (hp_scope r). nx. rewrite EM. do 2 stepx. fin.
  cbn [leaves fst snd]. hold; cbn [cfield_eqb mask]; rewrite ?u32_u32; try reflexivity; try exact ECF. discriminate.
Qed.

(* ---- 64-bit values ---- *)
Lemma alike_trans x1 x2 x3 : alike x1 x2 -> alike x2 x3 -> alike x1 x3.
Proof. intros (A1 & A2 & A3 & A4 & A5) (B1 & B2 & B3 & B4 & B5). split; [intros; rewrite B1; auto|]. repeat split; congruence. Qed.
Lemma check_after y q z n rest P : alike x y -> In q [RAX; RDX] -> xr x q = u32 z -> script_address r z -> n = 4 \/ n = 8 /\ z + 8 <= mem_size r ->
  (forall x', alike x x' -> G rest 0%nat x' P) -> G (emitCheckAddress env q n ++ rest) 0%nat y P.
Proof.
  intros AL Q0 E S N K. eapply (go_check base env fp nat_ junk US q n z r); eauto using LAY, PIN, MS.
  - rewrite (proj1 AL); [exact E|]. intros ->. cbn in Q0. intuition discriminate.
  - rewrite (proj1 AL) by discriminate. exact ES.
  - rewrite (proj1 AL) by discriminate. exact ED.
  - rewrite (proj1 (proj2 AL)). exact EH.
  - intros x' AL'. apply K. eapply alike_trans; eassumption.
Qed.
Lemma acq8_inv z v r' : acquireAddrRange z 8 r = Ok v r' -> script_address r z /\ u32 z = z /\ 0 <= z /\ z + 8 <= mem_size r /\ v = z /\ r' = r.
Proof.
  intros E. apply acquire_inv in E. destruct E as (S & S2 & -> & ->). destruct (small _ S) as [U B]. pose proof sizes as Z0.
  destruct (S2 ltac:(discriminate)) as [S3 _]. rewrite wrap32_id in S3 by zl. repeat split; auto; try lia; apply S.
Qed.
Lemma slot8_inv o v r' : is_i32 o -> acquireInt64Slot (so o) r = Ok v r' -> 0 <= frm r + so o < stp r /\ wrap32 (frm r + so o) = frm r + so o /\ v = frm r + so o /\ r' = r.
Proof. intros O E. apply slot_inv in E. destruct E as (S & -> & ->). destruct (slot_addr o O S) as [E B]. rewrite E. auto. Qed.
Lemma s64 z st : sarith64 false z st = Ok (wrap64 z) st.
Proof. unfold sarith64. destruct (is_i64b z) eqn:E; [|reflexivity]. unfold ret. rewrite wrap64_id; [reflexivity|]. unfold is_i64b in E. unb. lia. Qed.
Ltac gr E := xinv E; match goal with H : getr _ _ = Ok _ _ |- _ => injection H as <- <- end; cbn [regv pri alt] in *.
Ltac strqi adr := eapply (go_storeq base env fp nat_ junk _ _ adr); [exact Logic.I|ix adr|sz|sz|].

Lemma sim_PUSH_I_I64 s' (K1 : kp = true) : X PUSH_I_I64 s' ->
  goal PUSH_I_I64 (emitCheckAddress env RAX 8 ++ [ Load Q RCX (Idx R15 RAX 1 0); Store Q (At R14 (-8)) RCX; AluI Q ASub R14 8 ]) s'.
Proof.
  intros E. pose proof sizes as Z0. pose proof (EP K1) as EPK. cbn [exec] in E. gr E. li E. xinv E. apply acq8_inv in E0. destruct E0 as (S & U & B1 & B2 & -> & ->).
  xinv E. apply rd32_inv in E0. destruct E0 as (_ & _ & -> & ->). xinv E. apply push_inv in E0; [|exact INB]. destruct E0 as (P1 & ->).
  xinv E. apply rd32_inv in E0. destruct E0 as (_ & _ & -> & ->). apply push_inv in E; [|apply in_bounds_push; [exact INB|exact P1]]. destruct E as (P2 & ->).
  cbn [mem hp sp set_mem set_sp] in *.
  apply (check_ok RAX p); auto; [cbn; auto|]. intros x' AL. ldqx p. { congruence. } nx. ua. rewrite EM.
  strq (sp r - 8) (sp r). nx. ua. stepx. fin. hold.
  - cbn [eval_alu]. rewrite ES. replace (sp r - 4 - 4) with (sp r - 8) by lia. apply stk_sub. zl.
  - intros z. rewrite EM, store64_load. replace (sp r - 8 + 4) with (sp r - 4) by lia. replace (sp r - 4 - 4) with (sp r - 8) by lia.
    rewrite load32_store32_other; [reflexivity|]. destruct S as [_ S]. unfold in_gap in S. lia.
Qed.
Lemma sim_MOVE_I64 s' (K1 : kp = true) (K2 : ka = true) : X MOVE_I64 s' ->
  goal MOVE_I64 (emitCheckAddress env RAX 8 ++ emitCheckAddress env RDX 8 ++ [ Load Q RCX (Idx R15 RAX 1 0); Store Q (Idx R15 RDX 1 0) RCX ]) s'.
Proof.
  intros E. pose proof sizes as Z0. pose proof (EP K1) as EPK. pose proof (EA K2) as EAK. cbn [exec] in E. gr E. xinv E. li E0. apply acq8_inv in E0. destruct E0 as (S & U & B1 & B2 & -> & ->).
  gr E. xinv E. li E0. apply acq8_inv in E0. destruct E0 as (S' & U' & B1' & B2' & -> & ->). xinv E. li E0. apply rd64_inv in E0. destruct E0 as (_ & _ & -> & ->).
  li E. apply wr64_inv in E. destruct E as (_ & _ & ->).
  apply (check_ok RAX p); auto; [cbn; auto|]. intros y AY. apply (check_after y RDX a); auto; [cbn; auto|]. intros x' AL.
  ldqx p. { congruence. } strqi a. { congruence. } fin. nx. ua. rewrite EM. hold. intros z. apply store64_cong, u64_u64.
Qed.
Lemma sim_CVT_I64 o s' (K1 : kp = true) : is_i32 o -> X (CVT_I64 o) s' ->
  goal (CVT_I64 o) [ Movsxd RCX RAX; Lea RAX (At RBX (so o)); Store Q (At RAX 0) RCX; Alu Q ASub RAX R15 ] s'.
Proof.
  intros O E. pose proof sizes as Z0. cbn [exec] in E. gr E. xinv E. li E0. xinv E0. apply slot8_inv in E1; auto. destruct E1 as (B & W & -> & ->).
  xinv E0. apply wr64_inv in E1. destruct E1 as (B1 & B2 & ->). xinv E0. injection E1 as <- <-. injection E0 as <- <-. injection E as <-.
  do 2 stepx. rewrite (ea_at base US _ _ _ (frm r)); [|nx; exact EF|zl]. strq (frm r + so o) (frm r + so o). stepx. fin. nx. hold.
  - intros _. unfold Interp_Model.so; cbn [eval_alu frm set_mem]. rewrite ED, W. rewrite u64_id by zl. rewrite u32_small by zl. lia.
  - intros z. rewrite EM. rewrite (EP K1), wrap32_of_u32 by exact P32. apply store64_cong, u64_u64.
Qed.
Lemma sim_TRUNCATE_I64 s' (K1 : kp = true) : X TRUNCATE_I64 s' -> goal TRUNCATE_I64 (emitCheckAddress env RAX 8 ++ [ Load L RAX (Idx R15 RAX 1 0) ]) s'.
Proof.
  intros E. pose proof sizes as Z0. pose proof (EP K1) as EPK. cbn [exec] in E. gr E. xinv E. li E0. xinv E0. apply acq8_inv in E1. destruct E1 as (S & U & B1 & B2 & -> & ->).
  apply rd64_inv in E0. destruct E0 as (_ & _ & -> & ->). injection E as <-.
  apply (check_ok RAX p); auto; [cbn; auto|]. intros x' AL. ldx p. { congruence. } fin. nx. ua. rewrite EM. hold. intros _. symmetry. apply low_load64.
Qed.
Lemma sim_TEST_I64 s' (K1 : kp = true) : X TEST_I64 s' ->
  goal TEST_I64 (emitCheckAddress env RAX 8 ++ [ Load Q RCX (Idx R15 RAX 1 0); Test Q RCX RCX; SetAl not_equal; Movzxb RAX RAX ]) s'.
Proof.
  intros E. pose proof sizes as Z0. pose proof (EP K1) as EPK. cbn [exec] in E. gr E. xinv E. li E0. xinv E0. apply acq8_inv in E1. destruct E1 as (S & U & B1 & B2 & -> & ->).
  apply rd64_inv in E0. destruct E0 as (_ & _ & -> & ->). injection E as <-.
  apply (check_ok RAX p); auto; [cbn; auto|]. intros x' AL. ldqx p. { congruence. } do 3 stepx. fin. nx. ua. rewrite EM. hold. intros _.
  rewrite b2z_movzx, b2z_u32. cbn [cond]. now rewrite test64 by apply load64_range.
Qed.
Lemma sim_UN64 op o s' (K1 : kp = true) : is_i32 o -> X (UN64 op o) s' ->
  goal (UN64 op o) (emitCheckAddress env RAX 8 ++
            [ Load Q RCX (Idx R15 RAX 1 0); match op with Inv64 => Not Q RCX | Neg64 => Neg Q RCX end;
              Lea RAX (At RBX (so o)); Store Q (At RAX 0) RCX; Alu Q ASub RAX R15 ]) s'.
Proof.
  intros O E. pose proof sizes as Z0. pose proof (EP K1) as EPK. cbn [exec] in E. gr E. xinv E. li E0. apply acq8_inv in E0. destruct E0 as (S & U & B1 & B2 & -> & ->).
  xinv E. li E0. apply slot8_inv in E0; auto. destruct E0 as (B & W & -> & ->). xinv E. li E0. apply rd64_inv in E0. destruct E0 as (_ & _ & -> & ->).
  xinv E. assert (V : u64 v = u64 (match op with Inv64 => Z.lnot (load64 (mem r) p) | Neg64 => - load64 (mem r) p end) /\ s = mkIst r p a).
  { destruct op; [injection E0 as <- <-; auto|]. rewrite s64 in E0. injection E0 as <- <-. split; [apply u64_wrap64|reflexivity]. }
  destruct V as [V ->]. xinv E. li E1. apply wr64_inv in E1. destruct E1 as (B3 & B4 & ->). xinv E. li E1. injection E1 as <- <-. injection E as <-.
  apply (check_ok RAX p); auto; [cbn; auto|]. intros x' AL. ldqx p. { congruence. } ua. rewrite EM.
  destruct op; (do 2 stepx; rewrite (ea_at base US _ _ _ (frm r)); [|nx; ua; exact EF|zl]; strq (frm r + so o) (frm r + so o); stepx; fin; nx; ua; hold;
  [ intros _; unfold Interp_Model.so; cbn [eval_alu frm set_mem]; rewrite ED, W; rewrite u64_id by zl; rewrite u32_small by zl; lia
  | intros z; rewrite EM; apply store64_cong; rewrite V; cbn [mask]; rewrite ?u64_lnot, ?u64_opp; apply u64_u64 ]).
Qed.
Lemma sim_STOR_S_C_I64 o c0 c1 s' : is_i32 o -> X (STOR_S_C_I64 o c0 c1) s' ->
  goal (STOR_S_C_I64 o c0 c1) [ MovRI Q RCX (wrap64 (u32 c0 + two32 * c1)); Store Q (At RBX (so o)) RCX ] s'.
Proof.
  intros O E. pose proof sizes as Z0. cbn [exec] in E. li E. xinv E. apply slot8_inv in E0; auto. destruct E0 as (B & W & -> & ->). apply wr64_inv in E. destruct E as (B3 & B4 & ->).
  stepx. strq (frm r + so o) (frm r). fin. nx. hold. intros z. rewrite EM. apply store64_cong, u64_u64.
Qed.
Lemma sim_STOR_S_PRI_I64 o s' (K1 : kp = true) : is_i32 o -> X (STOR_S_PRI_I64 o) s' ->
  goal (STOR_S_PRI_I64 o) (emitCheckAddress env RAX 8 ++ [ Load Q RCX (Idx R15 RAX 1 0); Store Q (At RBX (so o)) RCX ]) s'.
Proof.
  intros O E. pose proof sizes as Z0. pose proof (EP K1) as EPK. cbn [exec] in E. gr E. li E. xinv E. apply acq8_inv in E0. destruct E0 as (S & U & B1 & B2 & -> & ->).
  xinv E. apply slot8_inv in E0; auto. destruct E0 as (B & W & -> & ->). xinv E. apply rd64_inv in E0. destruct E0 as (_ & _ & -> & ->).
  apply wr64_inv in E. destruct E as (B3 & B4 & ->).
  apply (check_ok RAX p); auto; [cbn; auto|]. intros x' AL. ldqx p. { congruence. } strq (frm r + so o) (frm r). fin. nx. ua. hold. intros z. rewrite EM. apply store64_cong, u64_u64.
Qed.
Lemma sim_ZERO_S_I64 o s' : is_i32 o -> X (ZERO_S_I64 o) s' -> goal (ZERO_S_I64 o) [ Alu Q AXor RCX RCX; Store Q (At RBX (so o)) RCX ] s'.
Proof.
  intros O E. pose proof sizes as Z0. cbn [exec] in E. li E. xinv E. apply slot_write in E0; auto. destruct E0 as (S & ->).
  unfold Interp_Model.so in E. rewrite setFrameValue_eq in E. apply setCell_inv in E; [|destruct LAY; constructor; wsimp; auto]. cbn [frm set_mem] in E. destruct E as (S2 & ->).
  replace (wrap32 (frm r + wrap32 (so o + 4))) with (frm r + so o + 4) in *.
  - stepx. destruct S2 as [S2 _]. cbn [stp set_mem] in S2. strq (frm r + so o) (frm r). fin. nx. hold. intros z. rewrite EM. cbn [eval_alu mask]. rewrite Z.lxor_nilpotent.
    change (wrap64 (u64 0)) with 0. rewrite store64_split. reflexivity.
  - pose proof (so_i32 mi o ST O). rewrite (wrap32_id (so o + 4)) by zl. rewrite wrap32_id by zl. lia.
Qed.
Lemma sim_CMP64 c s' (K1 : kp = true) (K2 : ka = true) : match c with Zero | NotZero => False | _ => True end -> X (CMP64 c) s' ->
  goal (CMP64 c) (emitCheckAddress env RAX 8 ++ emitCheckAddress env RDX 8 ++
            [ Load Q RDI (Idx R15 RAX 1 0); Load Q RSI (Idx R15 RDX 1 0); Cmp Q RDI RSI; SetAl (OpToCondition c); Movzxb RAX RAX ]) s'.
Proof.
  intros C E. pose proof sizes as Z0. pose proof (EP K1) as EPK. pose proof (EA K2) as EAK. cbn [exec] in E. gr E. xinv E. li E0. apply acq8_inv in E0. destruct E0 as (S & U & B1 & B2 & -> & ->).
  gr E. xinv E. li E0. apply acq8_inv in E0. destruct E0 as (S' & U' & B1' & B2' & -> & ->). xinv E. li E0. apply rd64_inv in E0. destruct E0 as (_ & _ & -> & ->).
  xinv E. li E0. apply rd64_inv in E0. destruct E0 as (_ & _ & -> & ->). injection E as <-.
  apply (check_ok RAX p); auto; [cbn; auto|]. intros y AY. apply (check_after y RDX a); auto; [cbn; auto|]. intros x' AL.
  ldqx p. { congruence. } ldqx a. { congruence. } do 3 stepx. fin. nx. ua. rewrite EM. hold. intros _. rewrite b2z_movzx, b2z_u32. f_equal.
  destruct (cmp64 (u64 (load64 (mem r) p)) (u64 (load64 (mem r) a)) _ _ (load64_range (mem r) p) (load64_range (mem r) a) (u64_u64 _) (u64_u64 _)) as (F1 & F2 & _).
  now apply eval_cond.
Qed.
Lemma bin_go o right ops res vp va v : In right [RSI; RCX] -> is_i32 o ->
  script_address r p -> script_address r a -> u32 p = p -> u32 a = a -> 0 <= p -> p + 8 <= mem_size r -> 0 <= a -> a + 8 <= mem_size r ->
  xr x RAX = u32 p -> xr x RDX = u32 a -> 0 <= frm r + so o -> frm r + so o + 8 <= mem_size r ->
  vp = load64 (mem r) p -> va = load64 (mem r) a ->
  (forall y rest P, xr y RDI = u64 vp -> xr y right = u64 va ->
     (forall z, (forall q, In q [RAX; RBX; RDX; R14; R15] -> xr z q = xr y q) -> xc z = xc y -> xm z = xm y -> exn z = exn y ->
        u64 (xr z res) = u64 v -> G rest 0%nat z P) -> G (ops ++ rest) 0%nat y P) ->
  G (emitBin64 env mi o right ops res) 0%nat x (holds base true ka (mkIst (set_mem (store64 (mem r) (frm r + so o) v) r) (frm r + so o) a)).
Proof.
  intros R0 O S S' U U' B1 B2 B1' B2' EPK EAK BF1 BF2 HP HA K. pose proof sizes as Z0. unfold emitBin64.
  apply (check_ok RAX p); auto; [cbn; auto|]. intros y AY. apply (check_after y RDX a); auto; [cbn; auto|]. intros x' AL.
  assert (Q1 : forall q, q <> RCX -> xr x' q = xr x q) by apply AL.
  assert (Q2 : xc x' = xc x) by apply AL. assert (Q3 : xm x' = xm x) by apply AL. assert (Q4 : exn x' = exn x) by apply AL. clear AY AL.
  cbn [app].
  eapply (go_loadq base env fp nat_ junk _ _ p); [exact Logic.I|rewrite (ea_idx base US _ _ p); [reflexivity|rewrite Q1 by discriminate; exact ED|rewrite Q1 by discriminate; congruence|zl]|sz|sz|].
  eapply (go_loadq base env fp nat_ junk _ _ a); [exact Logic.I|rewrite (ea_idx base US _ _ a); [reflexivity|nx; rewrite Q1 by discriminate; exact ED|nx; rewrite Q1 by discriminate; congruence|zl]|sz|sz|].
  stepx. rewrite (ea_at base US _ _ _ (frm r)); [|destruct R0 as [<- | [<- | []]]; nx; rewrite Q1 by discriminate; exact EF|zl].
  nx. rewrite Q3, EM, <- HP, <- HA.
  apply K.
  - destruct R0 as [<- | [<- | []]]; reflexivity.
  - destruct R0 as [<- | [<- | []]]; reflexivity.
  - intros z Z1 Z2 Z3 Z4 Z5.
    assert (ZQ : forall q, In q [RBX; RDX; R14; R15] -> xr z q = xr x q).
    { intros q IQ. rewrite Z1 by (cbn in *; tauto). destruct R0 as [<- | [<- | []]]; cbn in IQ; intuition; subst q; nx; apply Q1; discriminate. }
    assert (ZA : xr z RAX = base + (frm r + so o)).
    { rewrite Z1 by (cbn; auto). destruct R0 as [<- | [<- | []]]; reflexivity. }
    assert (ZC : xc z = xc x) by (rewrite Z2; exact Q2). assert (ZM : xm z = mem r) by (rewrite Z3; nx; rewrite Q3; exact EM). assert (ZE : exn z = exn x) by (rewrite Z4; exact Q4).
    clear Z1 Z2 Z3 Z4 K. eapply (go_storeq base env fp nat_ junk _ _ (frm r + so o)); [exact Logic.I|rewrite (ea_at base US _ _ _ (frm r + so o)); [lia|exact ZA|zl]|zl|sz|].
    stepx. fin. constructor; nx; rewrite ?ZC, ?ZM, ?ZE, ?ZQ by (cbn; auto); first [ exact EF | exact ES | exact ED | exact EH | exact ECF | exact ESC | exact EX | exact EA | idtac ].
    + intros _. cbn [eval_alu]. rewrite ZA, (ZQ R15), ED by (cbn; auto). rewrite u64_id by zl. rewrite u32_small by zl. lia.
    + intros z0. apply store64_cong. exact Z5.
Qed.
Lemma bin_value op vp va s v s1 : op <> DivAlt64 -> op <> ModAlt64 -> eval_bin64 false op vp va s = Ok v s1 ->
  s1 = s /\ u64 v = u64 (match op with Mul64 => vp * va | Add64 => vp + va | SubAlt64 => va - vp | Shl64 => Z.shiftl vp va | Sshr64 => Z.shiftr vp va
                     | Shr64 => Z.shiftr (u64 vp) va | Or64 => Z.lor vp va | And64 => Z.land vp va | Xor64 => Z.lxor vp va | _ => 0 end) /\
                (match op with Shl64 | Shr64 | Sshr64 => 0 <= va < 64 | _ => True end).
Proof.
  intros ND NM E0. destruct op; try contradiction; cbn [eval_bin64] in E0; rewrite ?s64 in E0; unfold shift_ok64 in E0;
    try (destruct ((0 <=? va) && (va <? 64)) eqn:SH; [|discriminate E0]); injection E0 as <- <-; rewrite ?u64_wrap64; repeat split; lia.
Qed.
Lemma bin_code op o c vp va v : is_i64 vp -> op <> DivAlt64 -> op <> ModAlt64 -> emit env nat_ mi (BIN64 op o) = Some c ->
  u64 v = u64 (match op with Mul64 => vp * va | Add64 => vp + va | SubAlt64 => va - vp | Shl64 => Z.shiftl vp va | Sshr64 => Z.shiftr vp va
                     | Shr64 => Z.shiftr (u64 vp) va | Or64 => Z.lor vp va | And64 => Z.land vp va | Xor64 => Z.lxor vp va | _ => 0 end) ->
  (match op with Shl64 | Shr64 | Sshr64 => 0 <= va < 64 | _ => True end) ->
  exists right ops res, c = emitBin64 env mi o right ops res /\ In right [RSI; RCX] /\
     forall y rest P, xr y RDI = u64 vp -> xr y right = u64 va ->
     (forall z, (forall q, In q [RAX; RBX; RDX; R14; R15] -> xr z q = xr y q) -> xc z = xc y -> xm z = xm y -> exn z = exn y ->
        u64 (xr z res) = u64 v -> G rest 0%nat z P) -> G (ops ++ rest) 0%nat y P.
Proof.
  intros VP ND NM EMIT V SH. cbn [emit] in EMIT. injection EMIT as <-.
  destruct op; try contradiction; (eexists; eexists; eexists; split; [reflexivity|]; split; [cbn; tauto|]; clear ND NM; 
      intros y rest P Y1 Y2 K; cbn [app]; stepx; apply K; nx; try reflexivity;
      [ intros q Q; cbn in Q; intuition; subst q; reflexivity
      | rewrite V; rewrite ?Y1, ?Y2; cbn [mask eval_alu]; rewrite ?u64_u64; rewrite ?u64_mul, ?u64_add, ?u64_sub, ?u64_land, ?u64_lor, ?u64_lxor; try reflexivity;
      cbn [eval_shift width mask signed]; rewrite ?Y2, count64 by exact SH; rewrite ?u64_u64, ?wrap64_of_u64 by exact VP; try reflexivity; now apply shl_64 ]).
Qed.
Lemma sim_BIN64 op o c s' (K1 : kp = true) (K2 : ka = true) : is_i32 o -> op <> DivAlt64 -> op <> ModAlt64 ->
  emit env nat_ mi (BIN64 op o) = Some c -> X (BIN64 op o) s' -> goal (BIN64 op o) c s'.
Proof.
  intros O ND NM EMIT E. pose proof sizes as Z0. pose proof (EP K1) as EPK. pose proof (EA K2) as EAK. cbn [exec] in E.
  gr E. xinv E. li E0. apply acq8_inv in E0. destruct E0 as (S & U & B1 & B2 & -> & ->).
  gr E. xinv E. li E0. apply acq8_inv in E0. destruct E0 as (S' & U' & B1' & B2' & -> & ->). 
  xinv E. li E0. apply slot8_inv in E0; auto. destruct E0 as (B & W & -> & ->).
  xinv E. li E0. apply rd64_inv in E0. destruct E0 as (_ & _ & -> & ->).
  xinv E. li E0. apply rd64_inv in E0. destruct E0 as (_ & _ & -> & ->).
  pose proof (load64_range (mem r) p) as VP. pose proof (load64_range (mem r) a) as VA.
  remember (load64 (mem r) p) as vp eqn:HP. remember (load64 (mem r) a) as va eqn:HA.
  xinv E. apply bin_value in E0; auto.
  destruct E0 as (-> & V & SH). xinv E. li E0. apply wr64_inv in E0. destruct E0 as (B3 & B4 & ->). xinv E. li E0. injection E0 as <- <-. injection E as <-.
  unfold Interp_Model.so. cbn [frm set_mem]. rewrite W.
  destruct (bin_code op o c vp va v VP ND NM EMIT V SH) as (right & ops & res & -> & C1 & C2). clear EMIT.
  assert (LV : leaves (BIN64 op o) kp ka = (kp, ka)) by (destruct op; try contradiction; reflexivity). rewrite LV. cbn [fst snd]. rewrite K1 at 1.
  eapply bin_go; eauto; lia.
Qed.

Lemma div64_go y d v rest P : kept x y -> xr y RAX = u64 v -> xr y RDX = u64 d -> is_i64 d -> is_i64 v -> v <> 0 -> ~ (v = -1 /\ d = - two63) ->
  (forall x', kept x x' -> xr x' RAX = u64 (Z.quot d v) -> xr x' RDX = u64 (Z.rem d v) -> G rest 0%nat x' P) ->
  G ([ Test Q RAX RAX; JErr equal (err_code DIVIDE_BY_ZERO);
    CmpI Q RAX (-1); JFwd not_equal 3; MovRI Q RCX (- two63); Cmp Q RDX RCX; JErr equal (err_code INTEGER_OVERFLOW);
    MovRR Q RCX RAX; MovRR Q RAX RDX; ShiftI Q SSar RDX 63; Idiv Q RCX ] ++ rest) 0%nat y P.
Proof.
  intros KY EV ED' D V V0 OV K. cbn [app].
  destruct (quot_range two63 d v ltac:(unfold two63; lia) ltac:(unb; lia) V0 OV) as [QR RR].
  assert (TZ : zf (test_flags Q (u64 v) (u64 v)) = false).
  { pose proof (test64 v V) as T. replace (v =? 0) with false in T by lia. cbn [negb] in T. now destruct (zf _). }
  destruct (cmp64 (u64 v) (-1) v (-1) V ltac:(unb; lia) (u64_u64 v) eq_refl) as (C1 & _ & _).
  destruct (cmp64 (u64 d) (u64 (- two63)) d (- two63) D ltac:(unb; lia) (u64_u64 d) (u64_u64 _)) as (C2 & _ & _).
  assert (Q0 : wrap64 (Z.quot d v) = Z.quot d v) by (apply wrap64_id; unb; lia).
  pose proof (sext64 d D) as SX.
  assert (TAIL : forall y, kept x y -> xr y RDX = u64 d -> xr y RAX = u64 v ->
    G ([ MovRR Q RCX RAX; MovRR Q RAX RDX; ShiftI Q SSar RDX 63; Idiv Q RCX ] ++ rest) 0%nat y P).
  { clear y KY EV ED'. intros y KY Y1 Y2. cbn [app]. do 3 stepx; eapply goes_cons; [reflexivity| |].
    - cbn [xexec]; unfold flagless; nx; rewrite ?Y1, ?Y2; cbn [eval_shift width signed mask]; rewrite ?u64_u64;
      change (63 mod 64) with 63; rewrite ?SX; rewrite ?(wrap64_of_u64 v V);
      replace (v =? 0) with false by lia; rewrite Q0, Z.eqb_refl; cbn [negb orb]; reflexivity.
    - apply K; nx; [|reflexivity..]; destruct KY as (Y3 & Y4 & Y5 & Y6 & Y7 & Y8); repeat split; nx; assumption. }
  assert (KF : forall f y, kept x y -> kept x (setf f y)) by (intros f z Hz; exact Hz).
  stepx. eapply go_cc; [reflexivity|nx; cbn [cond]; rewrite EV; exact TZ|]. stepx. eapply goes_jump; [reflexivity|].
  nx. cbn [cond]. rewrite EV, C1. destruct (v =? -1) eqn:V1; cbn [negb].
  - do 2 stepx. eapply go_cc; [reflexivity|nx; cbn [cond mask]; rewrite ED', C2; lia|]. apply TAIL; nx; auto.
  - do 3 apply goes_skip. apply TAIL; nx; auto.
Qed.
Lemma check_div64_inv d v s s' : check_div64 d v s = Ok tt s' -> v <> 0 /\ ~ (v = -1 /\ d = - two63) /\ s' = s.
Proof.
  unfold check_div64, fail, ret. destruct (v =? 0) eqn:V; [discriminate|]. destruct ((v =? -1) && (d =? - two63)) eqn:O; [discriminate|].
  intros [= <-]. split; [lia|]. split; [lia|reflexivity].
Qed.
Lemma sim_DIVMOD64 op o c s' (K1 : kp = true) (K2 : ka = true) : is_i32 o -> op = DivAlt64 \/ op = ModAlt64 ->
  emit env nat_ mi (BIN64 op o) = Some c -> X (BIN64 op o) s' -> goal (BIN64 op o) c s'.
Proof.
  intros O OP EMIT E. pose proof sizes as Z0. pose proof (EP K1) as EPK. pose proof (EA K2) as EAK. cbn [exec] in E.
  gr E. xinv E. li E0. apply acq8_inv in E0. destruct E0 as (S & U & B1 & B2 & -> & ->).
  gr E. xinv E. li E0. apply acq8_inv in E0. destruct E0 as (S' & U' & B1' & B2' & -> & ->).
  xinv E. li E0. apply slot8_inv in E0; auto. destruct E0 as (B & W & -> & ->).
  xinv E. li E0. apply rd64_inv in E0. destruct E0 as (_ & _ & -> & ->).
  xinv E. li E0. apply rd64_inv in E0. destruct E0 as (_ & _ & -> & ->).
  pose proof (load64_range (mem r) p) as VP. pose proof (load64_range (mem r) a) as VA.
  remember (load64 (mem r) p) as vp eqn:HP. remember (load64 (mem r) a) as va eqn:HA.
  xinv E. assert (V : s = mkIst r p a /\ vp <> 0 /\ ~ (vp = -1 /\ va = - two63) /\ v = match op with DivAlt64 => Z.quot va vp | _ => Z.rem va vp end).
  { destruct OP as [-> | ->]; cbn [eval_bin64] in E0; xinv E0; destruct v0; apply check_div64_inv in E1; destruct E1 as (V1 & V2 & ->); injection E0 as <- <-; auto. }
  destruct V as (-> & V0 & OV & V). xinv E. li E1. apply wr64_inv in E1. destruct E1 as (B3 & B4 & ->). xinv E. li E1. injection E1 as <- <-. injection E as <-.
  assert (PRE : forall rest P, (forall x', kept x x' -> xr x' RAX = u64 (Z.quot va vp) -> xr x' RDX = u64 (Z.rem va vp) -> G rest 0%nat x' P) ->
    G (emitDiv64 env ++ rest) 0%nat x P).
  { intros rest P K. unfold emitDiv64. rewrite <- !app_assoc. apply (check_ok RAX p); auto; [cbn; auto|]; intros y AY; apply (check_after y RDX a); auto; [cbn; auto|]; intros x' AL.
    cbn [app]. eapply (go_loadq base env fp nat_ junk _ _ p); [exact Logic.I|ix p; congruence|sz|sz|]; eapply (go_loadq base env fp nat_ junk _ _ a); [exact Logic.I|ix a; congruence|sz|sz|].
    refine (div64_go _ va vp rest _ _ _ _ VA VP V0 OV K);
    [ repeat split; nx; ua; reflexivity | nx; ua; now rewrite EM, <- HP | nx; ua; now rewrite EM, <- HA ]. }
  destruct OP as [-> | ->].
  all: match goal with EMIT : emit _ _ _ (BIN64 ?o0 _) = _ |- _ => 
    assert (C : c = emitDiv64 env ++ match o0 with DivAlt64 => [ MovRR Q RCX RAX; Lea RAX (At RBX (so o)); Store Q (At RAX 0) RCX; Alu Q ASub RAX R15 ]
        | _ => [ Lea RAX (At RBX (so o)); Store Q (At RAX 0) RDX; Alu Q ASub RAX R15 ] end) by (symmetry in EMIT; injection EMIT; auto) end; clear EMIT; subst c;
    apply PRE; intros z KX R1 R2; destruct KX as (KB & K14 & K15 & KC & KM & KE).
  - do 2 stepx. rewrite (ea_at base US _ _ _ (frm r)); [|nx; rewrite KB; exact EF|zl]. strq (frm r + so o) (frm r + so o). stepx. fin. nx.
    constructor; nx; rewrite ?KB, ?K14, ?K15, ?KC, ?KM, ?KE, ?EM;
    first [ exact EF | exact ES | exact ED | exact EH | exact ECF | exact ESC | exact EX | discriminate | idtac ].
    + intros _; unfold Interp_Model.so; cbn [eval_alu frm set_mem]; rewrite ED, W; rewrite u64_id by zl; rewrite u32_small by zl; lia.
    + intros z0. apply store64_cong. rewrite V, R1. cbn [mask]. now rewrite !u64_u64.
  - do 1 stepx. rewrite (ea_at base US _ _ _ (frm r)); [|nx; rewrite KB; exact EF|zl]. strq (frm r + so o) (frm r + so o). stepx. fin. nx.
    constructor; nx; rewrite ?KB, ?K14, ?K15, ?KC, ?KM, ?KE, ?EM;
    first [ exact EF | exact ES | exact ED | exact EH | exact ECF | exact ESC | exact EX | discriminate | idtac ].
    + intros _; unfold Interp_Model.so; cbn [eval_alu frm set_mem]; rewrite ED, W; rewrite u64_id by zl; rewrite u32_small by zl; lia.
    + intros z0. apply store64_cong. rewrite V, R2. now rewrite !u64_u64.
Qed.

(* ---- Floats ---- *)
Lemma sim_F32_NEG s' (K1 : kp = true) : X (F32_1 174) s' -> goal (F32_1 174) [ MovRI L RCX two31; Alu L AXor RAX RCX ] s'.
Proof.
  intros E. pure E. do 2 stepx. fin. hold. intros _. cbn [eval_alu mask regv pri]. rewrite (EP K1), (fa_neg _ _ FA) by exact P32. rewrite u32_wrap32.
  rewrite (u32_small two31) by (unfold two31, two32; lia). reflexivity.
Qed.
Lemma sim_F32_CVT s' (K1 : kp = true) : X (F32_1 185) s' -> goal (F32_1 185) [ Cvtsi2ss RAX; MovdR RAX X0 ] s'.
Proof.
  intros E. pure E. do 2 stepx. fin. hold. intros _. cbn [getx]. nx. rewrite (EP K1), wrap32_of_u32 by exact P32.
  destruct (fa_cvt _ _ FA p P32) as [F _]. cbn [regv pri]. rewrite F. apply u32_u32.
Qed.
Lemma sim_F32_ARITH op c s' (K1 : kp = true) (K2 : ka = true) : In op [175; 176; 177; 178] -> emit_f32_2 op = Some c -> X (F32_2 op) s' -> goal (F32_2 op) c s'.
Proof.
  intros OP EMIT E. pure E. cbn [regv pri alt]. pose proof P32 as P0. pose proof A32 as A0.
  cbn in OP. destruct OP as [<- | [<- | [<- | [<- | []]]]]; cbn [emit_f32_2] in EMIT; injection EMIT as <-;
  do 4 stepx; fin; cbn [leaves]; hold; intros _; nx; rewrite (EP K1), (EA K2), !u32_u32, !wrap32_of_u32 by assumption.
  - destruct (fa_arith _ _ FA 175 SMul p a) as [F _]; auto. { cbn; auto. } now rewrite F, ?u32_u32.
  - destruct (fa_arith_alt _ _ FA 176 SDiv p a) as [F _]; auto. { cbn; auto. } now rewrite F, ?u32_u32.
  - destruct (fa_arith _ _ FA 177 SAdd p a) as [F _]; auto. { cbn; auto. } now rewrite F, ?u32_u32.
  - destruct (fa_arith_alt _ _ FA 178 SSub p a) as [F _]; auto. { cbn; auto. } now rewrite F, ?u32_u32.
Qed.
Lemma sim_F32_MOD s' (K1 : kp = true) (K2 : ka = true) : X (F32_2 186) s' -> goal (F32_2 186) [ MovdX X1 RAX; MovdX X0 RDX; CallFmod; MovdR RAX X0 ] s'.
Proof.
  intros E. pure E. cbn [regv pri alt]. pose proof P32 as P0. pose proof A32 as A0. pose proof sizes as Z0. do 4 stepx. fin. cbn [leaves fst snd after_call seen].
  unfold after_call, seen. hold; cbn [xc xr xm hp sp frm hp_scope mem setx]; rewrite ?EH, ?ECF, ?ESC, ?u32_wrap32, ?u32_u32; try reflexivity; [|discriminate].
  intros _. nx. rewrite (EP K1), (EA K2), !u32_u32, !wrap32_of_u32 by assumption. destruct (fa_mod _ _ FA p a P0 A0) as [F _]. now rewrite F.
Qed.
Lemma sim_F32_CMP op c s' (K1 : kp = true) (K2 : ka = true) : In (op, c) [(179, Interp_Model.Eq); (180, Neq); (181, Sless); (182, Sleq); (183, Sgrtr); (184, Sgeq)] ->
  X (F32_2 op) s' -> goal (F32_2 op) (emitCompareF32 c) s'.
Proof.
  intros OP E. pure E. cbn [regv pri alt]. pose proof P32 as P0. pose proof A32 as A0.
  assert (OB : 179 <= op <= 184). { cbn in OP. intuition; match goal with H : (_, _) = _ |- _ => injection H as <- _; lia end. }
  assert (LV : leaves (F32_2 op) kp ka = (kp, ka)). { cbn in OP. intuition; match goal with H : (_, _) = _ |- _ => injection H as <- _; reflexivity end. }
  rewrite LV. rewrite (fa_cmp _ _ FA op p a OB P0 A0). cbn [fst snd].
  cbn in OP. destruct OP as [OP | [OP | [OP | [OP | [OP | [OP | []]]]]]]; injection OP as <- <-; unfold emitCompareF32; cbn [app]; do 4 stepx.
  1,2: eapply goes_jump; [reflexivity|]; nx; rewrite (EP K1), (EA K2), !u32_u32, !wrap32_of_u32 by assumption;
       destruct (p_ucomi fp p a) as [[]|]; cbn [ucomi_flags cond pf]; try stepx; try apply goes_skip; fin; hold; intros _; reflexivity.
  1,2: stepx; fin; nx; rewrite (EP K1), (EA K2), !u32_u32, !wrap32_of_u32 by assumption; rewrite (fa_swap _ _ FA p a);
       destruct (p_ucomi fp p a) as [[]|]; hold; intros _; reflexivity.
  1,2: stepx; fin; nx; rewrite (EP K1), (EA K2), !u32_u32, !wrap32_of_u32 by assumption;
       destruct (p_ucomi fp p a) as [[]|]; hold; intros _; reflexivity.
Qed.

(* ---- Blocks ---- *)
Lemma fin_ptr z : 0 <= z < 2 ^ 40 -> u64 (base + z) = base + z. Proof. intros. apply u64_id. zl. Qed.
Lemma movsd_go n s d rest y P : xr y RSI = base + s -> xr y RDI = base + d -> xr y RCX = n -> 0 <= n -> 0 <= s -> 0 <= d ->
  s + 4 * n <= mem_size env -> d + 4 * n <= mem_size env -> d <= s \/ s + 4 * n <= d -> bytes_only (xm y) ->
  (forall m', (forall z, m' z = if (d <=? z) && (z <? d + 4 * n) then xm y (s + (z - d)) else xm y z) -> bytes_only m' ->
     G rest 0%nat (setr RCX 0 (setr RSI (base + (s + 4 * n)) (setr RDI (base + (d + 4 * n)) (setm m' y)))) P) ->
  G (RepMovsd :: rest) 0%nat y P.
Proof.
  intros E1 E2 E3 N S D S1 D1 C B K. pose proof sizes as Z0. rewrite <- MS in Z0. destruct (copy_cells_exact base env (Z.to_nat n) s d (xm y)) as (m' & M & R & BM); auto; try lia.
  replace (Z.of_nat (Z.to_nat n)) with n in R by lia. eapply goes_cons; [reflexivity| |apply (K m' R BM)].
  cbn [xexec]. rewrite E1, E2, E3, M, <- !Z.add_assoc, !fin_ptr by zl. reflexivity.
Qed.
Lemma movsb_go n s d rest y P : xr y RSI = base + s -> xr y RDI = base + d -> xr y RCX = n -> 0 <= n -> 0 <= s -> 0 <= d ->
  s + n <= mem_size env -> d + n <= mem_size env -> d <= s \/ s + n <= d ->
  (forall m', (forall z, m' z = if (d <=? z) && (z <? d + n) then xm y (s + (z - d)) else xm y z) ->
     G rest 0%nat (setr RCX 0 (setr RSI (base + (s + n)) (setr RDI (base + (d + n)) (setm m' y)))) P) ->
  G (RepMovsb :: rest) 0%nat y P.
Proof.
  intros E1 E2 E3 N S D S1 D1 C K. pose proof sizes as Z0. rewrite <- MS in Z0. destruct (copy_bytes_exact base env (Z.to_nat n) s d (xm y)) as (m' & M & R); auto; try lia.
  replace (Z.of_nat (Z.to_nat n)) with n in R by lia. eapply goes_cons; [reflexivity| |apply (K m' R)].
  cbn [xexec]. rewrite E1, E2, E3, M, <- !Z.add_assoc, !fin_ptr by zl. reflexivity.
Qed.
Lemma stosd_go n d v rest y r0 r1 P : xr y RDI = base + d -> xr y RCX = n -> 0 <= n -> 0 <= d < 2 ^ 40 -> wrap32 (xr y RAX) = v ->
  mem_size r0 = mem_size r -> (forall z, xm y z = mem r0 z) -> fill_cells (Z.to_nat n) d v r0 = Ok tt r1 ->
  (forall m' q, (forall z, m' z = mem r1 z) -> r1 = set_mem (mem r1) r0 -> G rest 0%nat (setr RCX 0 (setr RDI q (setm m' y))) P) ->
  G (RepStosd :: rest) 0%nat y P.
Proof.
  intros E1 E2 N D V MS0 M F K. destruct (store_fill base env (Z.to_nat n) d v (xr y RAX) (xm y) r0 r1) as ((m' & S & R) & Q0 & B); auto.
  { rewrite MS0. apply MS. }
  eapply goes_cons; [reflexivity| |apply (K m' (u64 (base + d + 4 * n)) R Q0)]. cbn [xexec]. rewrite E1, E2, S. reflexivity.
Qed.
Lemma stosd_zero n d rest y P : xr y RDI = base + d -> xr y RCX = n -> 0 <= n -> 0 <= d -> d + 4 * n <= mem_size env -> xr y RAX = 0 ->
  (forall m' q, (forall z, m' z = fill_bytes (xm y) d (4 * n) 0 z) -> G rest 0%nat (setr RCX 0 (setr RDI q (setm m' y))) P) ->
  G (RepStosd :: rest) 0%nat y P.
Proof.
  intros E1 E2 N D B V K. destruct (store_zero base env (Z.to_nat n) d (xm y)) as (m' & S & R); try lia.
  replace (Z.of_nat (Z.to_nat n)) with n in R by lia.
  eapply goes_cons; [reflexivity| |apply (K m' (u64 (base + d + 4 * n)) R)]. cbn [xexec]. rewrite E1, E2, V, S. reflexivity.
Qed.
Lemma move_inv d s n r0 u r1 : move d s n r0 = Ok u r1 ->
  n <= 0 /\ r1 = r0 \/ 0 < n /\ 0 <= s /\ s + n <= mem_size r0 /\ 0 <= d /\ d + n <= mem_size r0 /\ r1 = set_mem (move_bytes (mem r0) d s n) r0.
Proof.
  unfold move, in_mem. destruct (n <=? 0) eqn:E0. { intros H. injection H as _ <-. left. split; [lia|auto]. }
  destruct ((0 <=? s) && (s + n <=? mem_size r0) && ((0 <=? d) && (d + n <=? mem_size r0))) eqn:E; [|discriminate].
  intros H. injection H as _ <-. right. repeat split; try lia.
Qed.
Lemma clear_inv d n r0 u r1 : Rt_Model.clear d n r0 = Ok u r1 ->
  n <= 0 /\ r1 = r0 \/ 0 < n /\ 0 <= d /\ d + n <= mem_size r0 /\ r1 = set_mem (fill_bytes (mem r0) d n 0) r0.
Proof.
  unfold Rt_Model.clear, in_mem. destruct (n <=? 0) eqn:E0. { intros H. injection H as _ <-. left. split; [lia|auto]. }
  destruct ((0 <=? d) && (d + n <=? mem_size r0)) eqn:E; [|discriminate]. intros H. injection H as _ <-. right. repeat split; lia.
Qed.
Lemma sim_FILL n s' (K1 : kp = true) (K2 : ka = true) : X (FILL n) s' ->
  goal (FILL n) [ Lea RDI (Idx R15 RDX 1 0); MovRI L RCX (u32 n / 4); RepStosd ] s'.
Proof.
  intros E. cbn [exec] in E. xinv E. injection E0 as <- <-. xinv E. li E0. apply acquire_inv in E0. destruct E0 as (S & _ & -> & ->).
  xinv E. injection E0 as <- <-. li E. destruct (small _ S) as [U B]. pose proof sizes as Z0. pose proof (EA K2) as EA2. rewrite U in EA2.
  unfold Interp_Model.fill in E. pose proof (u32_bounds n) as UB. assert (N4 : 0 <= u32 n / 4 < two32) by (clear -UB; unfold two32 in *; Z.to_euclidean_division_equations; lia).
  stepx. rewrite (ea_idx base US _ _ a); [|exact ED|exact EA2|zl]. stepx.
  eapply (stosd_go (u32 n / 4) a p _ _ r r'); nx; auto; try reflexivity; try zl.
  - rewrite u32_small by lia. reflexivity.
  - rewrite (EP K1). apply wrap32_of_u32, P32.
  - intros z. now rewrite EM.
  - intros m' q M R. fin. rewrite R. hold. exact M.
Qed.
Lemma sim_MOVS n s' c (K1 : kp = true) (K2 : ka = true) : a <= p \/ p + u32 n <= a -> emit env nat_ mi (MOVS n) = Some c -> X (MOVS n) s' -> goal (MOVS n) c s'.
Proof.
  intros CL EMIT E. cbn [exec] in E. xinv E. injection E0 as <- <-. xinv E. li E0. apply acquire_inv in E0. destruct E0 as (S & _ & -> & ->).
  xinv E. injection E0 as <- <-. xinv E. li E0. apply acquire_inv in E0. destruct E0 as (S2 & _ & -> & ->). li E.
  destruct (small _ S) as [U B]. destruct (small _ S2) as [U2 B2]. pose proof sizes as Z0.
  pose proof (EA K2) as EA2. rewrite U2 in EA2. pose proof (EP K1) as EP2. rewrite U in EP2. pose proof (u32_bounds n) as UB.
  assert (DM : u32 n = 4 * (u32 n / 4) + u32 n mod 4 /\ 0 <= u32 n / 4 < two32 /\ 0 <= u32 n mod 4 < 4)
    by (clear -UB; unfold two32 in *; Z.to_euclidean_division_equations; lia).
  cbn [emit] in EMIT. revert DM EMIT. generalize (u32 n / 4) (u32 n mod 4). intros dw by_ DM EMIT. injection EMIT as <-. cbn [app].
  apply move_inv in E. stepx. rewrite (ea_idx base US _ _ a); [|exact ED|exact EA2|zl].
  stepx. rewrite (ea_idx base US _ _ p); [|exact ED|exact EP2|zl].
  destruct E as [(N0 & ->) | (N0 & Q1 & Q2 & Q3 & Q4 & ->)].
  - replace dw with 0 by lia. replace by_ with 0 by lia. cbn [Z.eqb app]. fin. hold.
  - rewrite <- MS in Q2, Q4.
    assert (STAGE : forall y m1, xr y RSI = base + (p + 4 * dw) -> xr y RDI = base + (a + 4 * dw) ->
       (forall q, q <> RSI -> q <> RDI -> q <> RCX -> xr y q = xr x q) -> xc y = xc x -> exn y = exn x ->
       xm y = m1 -> (forall z, m1 z = if (a <=? z) && (z <? a + 4 * dw) then mem r (p + (z - a)) else mem r z) ->
       goes base env fp nat_ junk (if by_ =? 0 then [] else [ MovRI L RCX by_; RepMovsb ]) 0%nat y
          (holds base (fst (leaves (MOVS n) kp ka)) (snd (leaves (MOVS n) kp ka)) (mkIst (set_mem (move_bytes (mem r) a p (u32 n)) r) p a))).
    { intros y m1 Y1 Y2 Y3 Y4 Y5 Y6 Y7. destruct (by_ =? 0) eqn:BY.
      - fin. constructor; nx; rewrite ?Y3, ?Y4, ?Y5 by discriminate; first [ exact EF | exact ES | exact ED | exact EH | exact ECF | exact ESC | exact EX | exact EP | exact EA | idtac ].
        intros z. rewrite Y6, Y7. unfold move_bytes. replace (u32 n) with (4 * dw) by lia. reflexivity.
      - stepx. eapply (movsb_go by_ (p + 4 * dw) (a + 4 * dw)); nx; auto; try lia. { apply u32_small. zl. }
        intros m' M'. fin. constructor; nx; rewrite ?Y3, ?Y4, ?Y5 by discriminate; first [ exact EF | exact ES | exact ED | exact EH | exact ECF | exact ESC | exact EX | exact EP | exact EA | idtac ].
        intros z. rewrite M', Y6, !Y7. unfold move_bytes.
        destruct ((a + 4 * dw <=? z) && (z <? a + 4 * dw + by_)) eqn:Z1.
        + replace ((a <=? z) && (z <? a + u32 n)) with true by lia. replace (p + 4 * dw + (z - (a + 4 * dw))) with (p + (z - a)) by lia.
          replace ((a <=? p + (z - a)) && (p + (z - a) <? a + 4 * dw)) with false by lia. reflexivity.
        + destruct ((a <=? z) && (z <? a + 4 * dw)) eqn:Z2.
          * replace ((a <=? z) && (z <? a + u32 n)) with true by lia. reflexivity.
          * replace ((a <=? z) && (z <? a + u32 n)) with false by lia. reflexivity. }
    destruct (dw =? 0) eqn:D0; cbn [app].
    + eapply STAGE; nx; try reflexivity.
      * f_equal. lia.
      * f_equal. lia.
      * intros q A1 A2 A3. destruct q; auto; contradiction.
      * intros z. rewrite EM. destruct ((a <=? z) && (z <? a + 4 * dw)) eqn:Z1; [lia|reflexivity].
    + stepx. eapply (movsd_go dw p a); nx; try reflexivity; try lia.
      * apply u32_small. lia.
      * rewrite EM. apply BO.
      * intros m' M' _. eapply STAGE; nx; try reflexivity.
        -- intros q A1 A2 A3. destruct q; auto; contradiction.
        -- intros z. rewrite M', !EM. reflexivity.
Qed.
Lemma sim_NOP i s' : i = NOP \/ i = BREAK -> X i s' -> goal i [] s'.
Proof. intros [-> | ->] E; cbn [exec] in E; injection E as <-; fin; hold. Qed.
(* ---- Host functions ---- *)
Lemma seen_eq y r0 : same_plugin env r0 -> xm y = mem r0 -> xc y CHp = u32 (hp r0) -> xc y CSp = u32 (sp r0) -> xc y CFrm = u32 (frm r0) ->
  xc y CScope = u32 (hp_scope r0) -> is_i32 (hp r0) -> is_i32 (sp r0) -> is_i32 (frm r0) -> is_i32 (hp_scope r0) -> seen env y = r0.
Proof.
  intros [] M H1 H2 H3 H4 I1 I2 I3 I4. unfold seen. rewrite M, H1, H2, H3, H4, !wrap32_of_u32 by assumption.
  destruct r0; cbn in *. congruence.
Qed.
Lemma pop_n_inv n : forall r0 u r1, 0 <= sp r0 -> stp r0 + 8 < two31 -> pop_n n r0 = Ok u r1 ->
  r1 = set_sp (sp r0 + 4 * Z.of_nat n) r0 /\ (n = O \/ sp r0 + 4 * Z.of_nat n < stp r0 + 4).
Proof.
  induction n as [|n IH]; intros r0 u r1 S T E; cbn [pop_n] in E.
  - injection E as _ <-. split; [|auto]. replace (sp r0 + 4 * Z.of_nat 0) with (sp r0) by lia. now destruct r0.
  - xinv E. unfold popStack in E0. xinv E0. injection E1 as <- <-. xinv E0. unfold throw_if in E1. destruct (sp r0 >=? stp r0) eqn:C; [discriminate|].
    injection E1 as _ <-. xinv E0. apply rd32_inv in E1. destruct E1 as (_ & _ & _ & ->). xinv E0. injection E1 as _ <-. injection E0 as _ <-.
    rewrite wrap32_id in E by zl. apply IH in E; cbn [sp stp set_sp] in *; [|zl..]. destruct E as (-> & B). split; [|right; lia].
    replace (sp r0 + 4 * Z.of_nat (Datatypes.S n)) with (sp r0 + 4 + 4 * Z.of_nat n) by lia. reflexivity.
Qed.
Lemma local_inv d r0 v r1 : LocalToPhysAddr d r0 = Ok v r1 -> 0 <= d /\ u32 d < mem_size r0 /\ v = d /\ r1 = r0.
Proof.
  unfold LocalToPhysAddr, local_bad. destruct (((d >=? hp r0) && (d <? sp r0)) || (d <? 0) || (u32 d >=? mem_size r0)) eqn:C; [discriminate|].
  intros [= <- <-]. repeat split; lia.
Qed.

Lemma sim_FSTACK f c s' : emit_fstack f = Some c -> exec_fstack fe f (mkIst r p a) = Ok tt s' -> G c 0%nat x (holds base true ka s').
Proof.
  intros EMIT E. pose proof sizes as Z0.
  assert (POP : exists r', popStack r = Ok (load32 (mem r) (sp r)) r' /\ sp r < stp r /\ r' = set_sp (sp r + 4) r /\
    exec_fstack fe f (mkIst r p a) = Ok tt s').
  { destruct f; cbn [exec_fstack] in E; pose proof E as E'; xinv E'; li E0; pose proof E0 as E1; apply pop_inv in E1; try exact INB; destruct E1 as (B & -> & ->); eauto 8. }
  destruct POP as (r' & P1 & B & -> & _). pose proof (load32_range (mem r) (sp r)) as LV. set (v := load32 (mem r) (sp r)) in *.
  destruct f as [| |n|n]; cbn [emit_fstack] in EMIT; try discriminate; cbn [exec_fstack] in E; unfold bind at 1 in E; unfold lift at 1 in E; cbn [rts] in E; rewrite P1 in E;
    injection E as <-; cbn [rts pri alt].
  - injection EMIT as <-. ld (sp r) (sp r). do 2 stepx. fin. rewrite EM. fold v. hold; cbn [eval_alu].
    + intros _. now rewrite u32_landr.
    + rewrite ES. apply stk_add. zl.
  - destruct (n =? OP_RND_TO_NEAREST) eqn:N1; [apply Z.eqb_eq in N1; subst n|destruct (n =? OP_RND_TO_FLOOR) eqn:N2; [apply Z.eqb_eq in N2; subst n|
    destruct (n =? OP_RND_TO_CEIL) eqn:N3; [apply Z.eqb_eq in N3; subst n|destruct (n =? OP_RND_TO_ZERO) eqn:N4; [apply Z.eqb_eq in N4; subst n|discriminate]]]];
    injection EMIT as <-;
    assert (LD : load base env L (At R14 0) x = Some (u32 v)) by
      (rewrite (load_L base env _ _ (sp r)); [now rewrite EM|exact Logic.I|at_ (sp r)|zl|sz]).
    + eapply goes_cons; [reflexivity|cbn [xexec]; rewrite LD; reflexivity|]. stepx. fin. hold; cbn [eval_alu].
      * intros _. destruct (fa_nearest _ _ FA v LV) as [-> _]. now rewrite wrap32_of_u32.
      * rewrite ES. apply stk_add. zl.
    + eapply goes_cons; [reflexivity|cbn [xexec]; rewrite LD; reflexivity|]. do 2 stepx. fin. hold; cbn [eval_alu].
      * intros _. destruct (fa_floor _ _ FA v LV) as (-> & F1 & F2). rewrite (wrap32_of_u32 v) by auto. rewrite wrap32_of_u32 by auto. reflexivity.
      * rewrite ES. apply stk_add. zl.
    + eapply goes_cons; [reflexivity|cbn [xexec]; rewrite LD; reflexivity|]. do 2 stepx. fin. hold; cbn [eval_alu].
      * intros _. destruct (fa_ceil _ _ FA v LV) as (-> & F1 & F2). rewrite (wrap32_of_u32 v) by auto. rewrite wrap32_of_u32 by auto. reflexivity.
      * rewrite ES. apply stk_add. zl.
    + eapply goes_cons; [reflexivity|cbn [xexec]; rewrite LD; reflexivity|]. stepx. fin. hold; cbn [eval_alu].
      * intros _. destruct (fa_zero _ _ FA v LV) as [-> _]. now rewrite wrap32_of_u32.
      * rewrite ES. apply stk_add. zl.
Qed.
Lemma sim_NATIVE n k nt f s' : is_i32 k -> nat_ n = Some nt -> n_fn nt = Some f ->
  (lift (pushStack k);;; invokeNative nat_ n;;; lift (pop_n (Z.to_nat (u32 (k + 1))))) (mkIst r p a) = Ok tt s' ->
  G (emitNative n k) 0%nat x (holds base true ka s').
Proof.
  intros K0 NN NF E. pose proof sizes as Z0. xinv E. li E0. apply push_inv in E0; [|exact INB]. destruct E0 as (B & ->).
  set (r1 := set_mem (store32 (mem r) (sp r - 4) k) (set_sp (sp r - 4) r)) in *.
  assert (IB1 : in_bounds r1) by (apply in_bounds_push; [exact INB|exact B]).
  xinv E. unfold invokeNative in E0. rewrite NN, NF in E0. cbn [rts pri alt] in E0.
  destruct (f r1) as [w r2| |] eqn:F; try discriminate. injection E0 as _ <-. li E.
  destruct (NAT n nt f NN NF) as [G0 _ R0]. destruct (R0 _ _ _ F) as (W & FR & _). specialize (G0 r1 IB1). rewrite F in G0. destruct G0 as [[[] _] IB2].
  apply pop_n_inv in E; [|subst r1; cbn [sp stp set_hp set_sp set_mem] in *; zl..]. destruct E as (-> & PB).
  pose proof (u32_bounds (k + 1)) as UB. rewrite Z2Nat.id in * by apply UB. cbn [sp stp set_hp set_sp set_mem hp] in PB.
  assert (PB' : u32 (k + 1) = 0 \/ sp r - 4 + 4 * u32 (k + 1) < stp r + 4).
  { subst r1; cbn [sp stp set_hp set_sp set_mem hp] in *. destruct PB as [PB|PB]; [left; lia|right]. lia. } clear PB.
  unfold emitNative. stri (sp r - 4) (sp r). do 4 stepx. do 2 stepx. nx. cbn [eval_alu] in *.
  match goal with |- goes _ _ _ _ _ (CallNative _ :: _) _ ?y _ => assert (SE : seen env y = r1) end.
  { apply seen_eq; subst r1; nx; cbn [eval_alu].
    - destruct SP. constructor; assumption.
    - now rewrite EM, wrap32_id by exact K0.
    - exact EH.
    - rewrite ES, ED, stk_sub by zl. replace (base + (sp r - 4) - base) with (sp r - 4) by lia. now rewrite u32_u64.
    - exact ECF.
    - exact ESC.
    - zl.
    - zl.
    - zl.
    - apply Z0. }
  eapply goes_cons; [reflexivity|cbn [xexec]; rewrite NN, NF, SE, F; reflexivity|]. unfold after_call. nx.
  do 4 stepx. eapply goes_cons; [reflexivity|cbn [xexec]; nx; rewrite EX; reflexivity|]. stepx. fin. nx. cbn [eval_alu].
  assert (RR : u64 (u64 (u64 (u64 (xr x R14 - 4) - xr x R15) + xr x R15) + wrap32 (u32 (k + 1) * 4)) = base + (sp r - 4 + 4 * u32 (k + 1))).
  { rewrite ES, ED, stk_sub by zl. rewrite (wrap32_id (u32 (k + 1) * 4)) by zl.
    replace (base + (sp r - 4) - base) with (sp r - 4) by lia. rewrite (u64_id (sp r - 4)) by zl.
    replace (sp r - 4 + base) with (base + (sp r - 4)) by lia. rewrite (u64_id (base + (sp r - 4))) by zl. rewrite u64_id by zl. lia. }
  constructor; nx; rewrite ?RR; first [ exact ED | exact EX | exact EA | reflexivity | idtac ].
  - rewrite FR. exact EF.
  - cbn [load xc setc mask]. nx. now rewrite EH, ?u32_u32.
Qed.
Lemma sim_SYSREQ_N n k c s' : is_i32 k -> emit env nat_ mi (SYSREQ_N n k) = Some c -> X (SYSREQ_N n k) s' -> goal (SYSREQ_N n k) c s'.
Proof.
  intros K0 EMIT E. cbn [emit exec leaves fst snd] in *. destruct (nat_ n) as [nt|] eqn:NN; [|discriminate].
  destruct (n_fn nt) as [f|] eqn:NF.
  - destruct (n_repl nt) as [fs|] eqn:NR.
    + now apply (sim_FSTACK fs).
    + injection EMIT as <-. eapply sim_NATIVE; eauto.
  - exfalso. xinv E. xinv E. unfold invokeNative in E1. rewrite NN, NF in E1. discriminate.
Qed.
(* ---- Arrays ---- *)
Lemma init_fill d fl v rest_kp y m1 s' : 0 <= fl -> is_i32 fl -> is_i32 v -> 0 <= d < 2 ^ 40 -> xr y RDI = base + d ->
  (forall q, q <> RSI -> q <> RDI -> q <> RCX -> xr y q = xr x q) -> xc y = xc x -> exn y = exn x ->
  (forall z, xm y z = m1 z) -> rest_kp = (fl =? 0) && kp ->
  (if fl =? 0 then ret tt else if v =? 0 then Rt_Model.clear d (fl * 4) else fill_cells (Z.to_nat fl) d v) (set_mem m1 r) = Ok tt s' ->
  G (if fl =? 0 then [] else [ MovRI L RAX v; MovRI L RCX fl; RepStosd ]) 0%nat y (holds base rest_kp ka (mkIst s' p a)).
Proof.
  intros F0 F32 V32 D Y1 Y2 Y3 Y4 Y5 -> E. pose proof sizes as Z0.
  destruct (fl =? 0) eqn:FL.
  - injection E as <-. fin. cbn [andb]. constructor; nx; rewrite ?Y2, ?Y3, ?Y4 by discriminate; nx; first [ exact EF | exact ES | exact ED | exact EH | exact ECF | exact ESC | exact EX | exact EP | exact EA | idtac ].
    exact Y5.
  - do 2 stepx. cbn [andb]. destruct (v =? 0) eqn:V0.
    + apply clear_inv in E. destruct E as [(B & _) | (B1 & B2 & B3 & ->)]; [lia|].
      eapply (stosd_zero fl d); nx; auto; try lia.
      * apply u32_small. zl.
      * rewrite MS. cbn [mem_size set_mem] in B3. lia.
      * apply Z.eqb_eq in V0. now subst v.
      * intros m' q M. fin. constructor; nx; rewrite ?Y2, ?Y3, ?Y4 by discriminate; nx; first [ exact EF | exact ES | exact ED | exact EH | exact ECF | exact ESC | exact EX | discriminate | exact EA | idtac ].
        intros z. rewrite M. unfold fill_bytes. nx. rewrite ?Y5. now rewrite (Z.mul_comm 4 fl).
    + eapply (stosd_go fl d v _ _ (set_mem m1 r) s'); nx; auto; try lia.
      * apply u32_small. zl.
      * now apply wrap32_of_u32.
      * intros m' q M R. fin. rewrite R. constructor; nx; rewrite ?Y2, ?Y3, ?Y4 by discriminate; first [ exact EF | exact ES | exact ED | exact EH | exact ECF | exact ESC | exact EX | discriminate | exact EA | idtac ].
        exact M.
Qed.
Lemma sim_INITARRAY g d iv cp fl v c s' : (g = Pri -> kp = true) -> (g = Alt -> ka = true) -> Forall is_i32 [d; iv; cp; fl; v] -> 0 <= iv -> 0 <= cp -> 0 <= fl ->
  (iv = 0 -> regv (mkIst r p a) g <= d \/ d + 4 * cp <= regv (mkIst r p a) g) ->
  emit env nat_ mi (INITARRAY g d iv cp fl v) = Some c -> X (INITARRAY g d iv cp fl v) s' -> goal (INITARRAY g d iv cp fl v) c s'.
Proof.
  intros K1 K2 OPS I0 C0 F0 CL EMIT E. inversion OPS as [|? ? D32 OPS1]; subst. inversion OPS1 as [|? ? IV32 OPS2]; subst. inversion OPS2 as [|? ? CP32 OPS3]; subst.
  inversion OPS3 as [|? ? FL32 OPS4]; subst. inversion OPS4 as [|? ? V32 _]; subst. clear OPS OPS1 OPS2 OPS3 OPS4.
  pose proof sizes as Z0. change (lift (initArray (regv (mkIst r p a) g) d iv cp fl v) (mkIst r p a) = Ok tt s') in E. li E.
  destruct (reg_val g K1 K2) as [RV ARR]. set (arr := regv (mkIst r p a) g) in *. clearbody arr.
  cbn [emit leaves fst snd] in *. destruct (iv =? 0) eqn:IV.
  - apply Z.eqb_eq in IV. subst iv. specialize (CL eq_refl). injection EMIT as <-.
    unfold initArray in E. cbv zeta in E. xinv E. apply local_inv in E0. destruct E0 as (A0 & A1 & -> & ->). rewrite u32_small in A1 by zl. rewrite u32_small in RV by zl.
    xinv E. injection E0 as <- <-. xinv E. unfold throw_if in E0. destruct (arr + 4 * 0 + 4 * cp + 4 * fl - 4 >=? mem_size r) eqn:T; [discriminate|]. injection E0 as _ <-.
    xinv E. cbn [Z.eqb andb] in E0. replace (arr + 4 * 0 + 4 * cp) with (arr + 4 * cp) in * by lia. replace (arr + 4 * 0) with arr in E0 by lia.
    cbn [app]. stepx. rewrite (ea_idx base US _ _ arr); [|exact ED|exact RV|zl].
    destruct (cp =? 0) eqn:CP.
    + apply Z.eqb_eq in CP. subst cp. injection E0 as _ <-. cbn [app]. replace (arr + 4 * 0) with arr in * by lia.
      eapply (init_fill arr fl v _ _ (mem r)); nx; auto; try zl.
      * intros q Q1 Q2 Q3. destruct q; auto; contradiction.
      * intros z. now rewrite EM.
      * destruct v0. replace (set_mem (mem r) r) with r by now destruct r. exact E.
    + xinv E0. apply local_inv in E1. destruct E1 as (D0 & D1 & -> & ->). rewrite u32_small in D1 by zl. xinv E0. destruct (throw_if _ _ _) as [? r1| |] eqn:T1 in E1; try discriminate.
      injection E1 as <- <-. unfold throw_if in T1. destruct (d + 4 * 0 + 4 * cp - 4 >=? data_size r) eqn:T2; [discriminate|]. injection T1 as _ <-.
      xinv E0. cbn [Z.to_nat copy_ivs] in E1. injection E1 as _ <-. replace (d + 4 * 0) with d in * by lia. apply move_inv in E0. destruct E0 as [(B & _) | (B1 & B2 & B3 & B4 & B5 & ->)]; [lia|].
      cbn [app]. stepx. rewrite (ea_at base US _ _ _ 0); [|nx; rewrite ED; lia|zl]. replace (0 + d) with d by lia. stepx.
      eapply (movsd_go cp d arr); nx; auto; try (rewrite MS; lia).
      * apply u32_small. zl.
      * rewrite EM. apply BO.
      * intros m' M _. eapply (init_fill (arr + 4 * cp) fl v _ _ (move_bytes (mem r) arr d (cp * 4))); nx; auto; try zl.
        -- intros q Q1 Q2 Q3. destruct q; auto; contradiction.
        -- intros z. rewrite M, !EM. unfold move_bytes. now rewrite (Z.mul_comm 4 cp).
  - injection EMIT as <-. cbn [andb].
    do 3 stepx. stepx. nx. cbn [eval_alu] in *.
    match goal with |- goes _ _ _ _ _ (CallInit _ _ _ _ _ _ :: _) _ ?y _ => assert (SE : seen env y = r) end.
    { apply seen_eq; nx; cbn [eval_alu]; auto; try zl.
      - exact EH.
      - rewrite ES, ED. rewrite (u64_id (base + sp r)) by zl. replace (base + sp r - base) with (sp r) by lia. now rewrite u32_u64.
      - exact ECF.
      - exact ESC. }
    eapply goes_cons; [reflexivity|cbn [xexec]; rewrite SE; nx; cbn [gpr_eqb]|].
    { match goal with |- context [initArray ?t] => replace t with arr by (destruct g; nx; cbn [reg_of gpr_eqb] in *; rewrite RV, wrap32_of_u32 by exact ARR; reflexivity) end.
      rewrite E. reflexivity. }
    unfold after_call. nx. do 2 stepx. eapply goes_cons; [reflexivity|cbn [xexec]; nx; cbn [cond test_flags zf]; reflexivity|]. fin.
    assert (FR : frm r' = frm r) by (eapply (st_init frm); [reflexivity..|exact E]).
    assert (SR : sp r' = sp r) by (eapply (st_init sp); [reflexivity..|exact E]).
    constructor; nx; first [ exact ED | exact EX | exact EA | discriminate | reflexivity | idtac ].
    + rewrite FR. exact EF.
    + rewrite SR. exact ES.
Qed.
Lemma sim_GENARRAY n z c s' : is_i32 n -> heap_scopes r = true -> emit env nat_ mi (GENARRAY n z) = Some c -> X (GENARRAY n z) s' -> goal (GENARRAY n z) c s'.
Proof.
  intros N HS EMIT E. pose proof sizes as Z0. cbn [exec] in E. li E. xinv E. injection E0 as <- <-. xinv E. apply acquire_inv in E0. destruct E0 as (S & _ & -> & ->).
  destruct S as [S _]. xinv E. cbn [emit leaves fst snd] in *. unfold generateArray in E0. destruct (n =? 1) eqn:N1.
  - apply Z.eqb_eq in N1. subst n. injection EMIT as <-. cbn in E. injection E as <-.
    xinv E0. apply rd32_inv in E. destruct E as (_ & _ & -> & ->). pose proof (load32_range (mem r) (sp r)) as LV. set (w := load32 (mem r) (sp r)) in *.
    cbv zeta in E0. pose proof (u32_bounds w) as UB. destruct (u32 w <=? 0) eqn:C0; [discriminate|]. unfold u32_mul_safe in E0.
    destruct (negb _) eqn:C1 in E0; [discriminate|]. xinv E0. injection E as <- <-. xinv E0. apply wr32_inv in E. destruct E as (_ & _ & ->).
    xinv E0. unfold throw_if in E. destruct (hp r + u32 (u32 w * 4) >=? sp r) eqn:C2; [discriminate|]. injection E as _ <-.
    assert (U4 : u32 (u32 w * 4) = u32 w * 4). { rewrite u32_u32 in C1. change (u32 4) with 4 in C1. apply u32_small. unfold two32 in *. lia. }
    rewrite U4 in *. xinv E0. injection E as _ <-. rewrite wrap32_id in E0 by zl. rewrite HS in E0. xinv E0. injection E as _ <-.
    assert (W : u32 w = w). { destruct (Z_le_dec 0 w); [apply u32_small; zl|]. exfalso. unfold u32 in *. rewrite <- (Z_mod_plus_full w 1) in C2. rewrite Z.mod_small in C2 by zl. zl. }
    cbn [app]. stepx. ld (sp r) (sp r). stepx. eapply go_cc; [reflexivity| |].
    { nx. rewrite EM. fold w. cbn [cond cmp_flags zf sf ofl mask signed]. rewrite u32_u32, W in *. rewrite Z.sub_0_r, W, !wrap32_id by zl. change (wrap32 0) with 0. zl. }
    str (sp r) (sp r). stepx. do 2 stepx. do 1 stepx. nx. cbn [load]. rewrite EH, !u32_u32, EM. fold w. rewrite u32_small by zl.
    assert (EA1 : forall k, 0 <= k < 2 ^ 40 -> u64 (base + k * 1 + 0) = base + k) by (intros; rewrite u64_id by zl; lia).
    cbn [ea]. nx. rewrite ED. replace (u64 (hp r + u32 w * 4 + 0)) with (hp r + u32 w * 4) by (rewrite u64_id; zl). rewrite !EA1 by zl.
    eapply go_cc; [reflexivity| |].
    { nx. rewrite ES. cbn [cond cmp_flags cf mask]. rewrite !u64_id by zl. zl. }
    eapply goes_cons; [reflexivity|reflexivity|]. nx. cbn [mask].
    assert (WH : wrap32 (hp r) = hp r) by (apply wrap32_id; zl).
    destruct z.
    + xinv E0. apply rd32_inv in E. destruct E as (_ & _ & -> & ->). cbn [mem set_mem set_hp] in E0. rewrite load32_store32_same, WH in E0.
      apply clear_inv in E0. destruct E0 as [(B & _) | (B1 & B2 & B3 & ->)]; [lia|].
      do 2 stepx. eapply (stosd_zero (u32 w) (hp r)); nx; auto; try lia.
      * rewrite MS. cbn [mem_size set_hp set_mem] in B3. lia.
      * cbn [eval_alu]. now rewrite Z.lxor_nilpotent.
      * intros m' q M. stepx. fin. constructor; nx; first [ exact EF | exact ES | exact ED | exact ECF | exact ESC | exact EX | exact EP | discriminate | idtac ].
        -- reflexivity.
        -- intros a0. rewrite M. cbn [mask]. rewrite (Z.mul_comm 4). nx. now rewrite WH.
    + injection E0 as _ <-. fin. constructor; nx; first [ exact EF | exact ES | exact ED | exact ECF | exact ESC | exact EX | exact EP | discriminate | idtac ].
      * reflexivity.
      * intros a0. cbn [mask]. now rewrite WH.
  - destruct (Z_le_dec n 0) as [NN|NN].
    { exfalso. replace (Z.to_nat n) with O in E0 by lia. cbn in E0. discriminate. }
    assert (GE : generateArray n (sp r) z r = Ok v s) by (unfold generateArray; rewrite N1; exact E0). clear E0.
    assert (FR : frm s = frm r) by (eapply (st_generate frm); [reflexivity..|exact GE]).
    assert (SR : sp s = sp r) by (eapply (st_generate sp); [reflexivity..|exact GE]).
    assert (TR : stp s = stp r) by (eapply (st_generate stp); [reflexivity..|exact GE]).
    apply pop_n_inv in E; [|zl..]. rewrite SR, TR, (u32_small (n - 1)), Z2Nat.id in E by zl. destruct E as (-> & PB).
    injection EMIT as <-. do 3 stepx. stepx. nx. cbn [eval_alu] in *.
    match goal with |- goes _ _ _ _ _ (CallGen _ _ :: _) _ ?y _ => assert (SE : seen env y = r) end.
    { apply seen_eq; nx; cbn [eval_alu]; auto; try zl.
      - exact EH.
      - rewrite ES, ED. replace (base + sp r - base) with (sp r) by lia. now rewrite u32_u64.
      - exact ECF.
      - exact ESC.
      }
    assert (R14' : u64 (u64 (xr x R14 - xr x R15) + xr x R15) = base + sp r).
    { rewrite ES, ED. replace (base + sp r - base) with (sp r) by lia. rewrite (u64_id (sp r)) by zl. rewrite u64_id by zl. lia. }
    eapply goes_cons; [reflexivity|cbn [xexec]; rewrite SE; nx; rewrite R14'; replace (base + sp r - base) with (sp r) by lia; rewrite wrap32_id by zl; rewrite GE; reflexivity|].
    unfold after_call. nx. do 2 stepx. eapply goes_cons; [reflexivity|cbn [xexec]; nx; cbn [cond test_flags zf]; reflexivity|]. do 2 stepx. fin. nx. cbn [eval_alu].
    constructor; nx; first [ exact ED | exact EX | discriminate | reflexivity | idtac ].
    + intros K. rewrite (EP K). now rewrite u32_u32.
    + rewrite FR. exact EF.
    + rewrite stk_add by zl. lia.
Qed.
Lemma flow_inv i k' : flow i (kp, ka) = Some k' ->
  (fst (uses i) = true -> kp = true) /\ (snd (uses i) = true -> ka = true) /\ k' = leaves i kp ka.
Proof.
  unfold flow. destruct (uses i) as [up ua0]. cbn [fst snd]. destruct (implb up kp && implb ua0 ka) eqn:E; [|discriminate]. intros [= <-].
  destruct up, ua0, kp, ka; cbn in E; try discriminate; auto.
Qed.
Lemma one_op z l : Forall is_i32 (z :: l) -> is_i32 z. Proof. intros H. now inversion H. Qed.
Lemma two_op z w l : Forall is_i32 (z :: w :: l) -> is_i32 w. Proof. intros H. inversion H. now apply (one_op w l). Qed.
Lemma sim_exec i c k' s' : emit env nat_ mi i = Some c -> flow i (kp, ka) = Some k' -> Forall is_i32 (operands i) -> agrees base (mkIst r p a) i ->
  X i s' -> G c 0%nat x (holds base (fst k') (snd k') s').
Proof.
  intros EMIT FL OPS AG E. apply flow_inv in FL. destruct FL as (KP & KA & ->).
  destruct i; try discriminate EMIT; cbn [uses fst snd] in KP, KA; cbn [operands] in OPS; cbn [agrees rts pri alt] in AG;
  repeat match goal with H : true = true -> _ |- _ => specialize (H eq_refl) end;
  try (assert (K1 : r0 = Pri -> kp = true) by (intros ->; auto); assert (K2 : r0 = Alt -> ka = true) by (intros ->; auto));
  try (pose proof EMIT as EMIT'; cbn [emit] in EMIT'; injection EMIT' as <-).
  all: try solve [ first [ apply sim_ZERO_S | apply sim_NOP | apply sim_LOAD | apply sim_LOAD_S | apply sim_LREF_S | apply sim_LOAD_I | apply sim_LODB_I | apply sim_CONST | apply sim_ADDR | apply sim_STOR
    | apply sim_STOR_S | apply sim_STOR_S_C | apply sim_ZERO_S | apply sim_SREF_S | apply sim_STOR_I | apply sim_STRB_I | apply sim_IDXADDR | apply sim_XCHG | apply sim_PUSHR
    | apply sim_POP | apply sim_STACK | apply sim_PUSH_C | apply sim_PUSH_S | apply sim_PUSH_ADR | apply sim_ADD | apply sim_AND | apply sim_OR | apply sim_XOR | apply sim_SMUL
    | apply sim_NEG | apply sim_INVERT | apply sim_ADD_C | apply sim_SMUL_C | apply sim_SUB_ALT | apply sim_ZEROR | apply sim_INCR | apply sim_DECR | apply sim_STRADJUST
    | apply sim_NOT | apply sim_EQ_C | apply sim_SHL | apply sim_SHR | apply sim_SSHR | apply sim_SHL_C | apply sim_BOUNDS | apply sim_SWAP | apply sim_SDIV | apply sim_SDIV_ALT
    | apply sim_SMOD_ALT | apply sim_HEAP_SAVE | apply sim_HEAP_RESTORE | apply sim_PUSH_I_I64 | apply sim_MOVE_I64 | apply sim_CVT_I64 | apply sim_TRUNCATE_I64
    | apply sim_TEST_I64 | apply sim_UN64 | apply sim_STOR_S_C_I64 | apply sim_STOR_S_PRI_I64 | apply sim_ZERO_S_I64 | apply sim_FILL ];
    eauto using one_op, two_op ].
  - cbn [emit] in EMIT. replace c with (match r0 with Pri => [ MovRR Q RAX RDX ] | Alt => [ MovRR Q RDX RAX ] end) by (destruct r0; congruence). now apply sim_MOVE.
  - destruct AG. apply sim_HEAP; eauto using one_op.
  - cbn [emit] in EMIT. apply one_op in OPS. destruct op.
    all: try (eapply sim_BIN64; eauto; discriminate).
    all: eapply sim_DIVMOD64; eauto.
  - destruct AG. apply sim_CMP; auto. destruct c0; auto.
  - destruct AG. apply sim_CMP64; auto. destruct c0; auto.
  - destruct op as [|q|q]; try discriminate EMIT. cbn [emit] in EMIT. do 8 (try (destruct q as [q|q|]; try discriminate EMIT)).
    all: injection EMIT as <-; first [ now apply sim_F32_CVT | now apply sim_F32_NEG | contradiction AG; reflexivity ].
  - destruct op as [|q|q]; try discriminate EMIT. cbn [emit] in EMIT. do 8 (try (destruct q as [q|q|]; try discriminate EMIT)).
    all: try (injection EMIT as <-).
    all: try (apply sim_F32_CMP; auto; cbn; tauto).
    all: try (apply sim_F32_ARITH; [assumption | assumption | cbn; tauto | reflexivity | assumption]).
    all: try (now apply sim_F32_MOD).
  - apply sim_MOVS; auto.
  - apply sim_SYSREQ_N; eauto using two_op.
  - apply sim_GENARRAY; eauto using one_op.
  - destruct AG as (A1 & A2 & A3 & A4). apply sim_INITARRAY; auto.
Qed.
End Sim.
