(* Compiled code stops where the interpreter stops: C46. *)
From Verif Require Import Base Rt_Model Array_Model Interp_Model Rt_Spec Mem_Spec X64_Model X64_Spec.
From Verif Require Import Base_Proofs Rt_Proofs Mem_Proofs X64_Step X64_Arith X64_Push X64_Copy X64_Sim X64_Ext X64_Proofs.
From Coq Require Import ZifyBool Lia.
Ltac Zify.zify_post_hook ::= Z.div_mod_to_equations.

Lemma window_over a b m : user_space m -> 0 <= b < a -> m mod two32 + a < two32 -> cond above (cmp_flags L (m + a) (m + b)) = true.
Proof.
  intros U B W. cbn [cond cmp_flags cf zf mask]. unfold u32. unfold two32 in *.
  replace ((m + a) mod 4294967296) with (m mod 4294967296 + a) by lia.
  replace ((m + b) mod 4294967296) with (m mod 4294967296 + b) by lia.
  replace (m + a - (m + b)) with (a - b) by lia. lia.
Qed.
Lemma u32_neg z : - two31 <= z < 0 -> u32 z = z + two32.
Proof. intros H. unfold u32, two31, two32 in *. lia. Qed.
Lemma over_u64 p n : is_i32 p -> is_i32 n -> 0 <= n -> (u64 p >? u32 n) = true -> (u32 p <? u32 n) || (p =? n) = false.
Proof. unfold is_i32, u64, u32, two31, two32, two64. lia. Qed.
Ltac Zify.zify_post_hook ::= idtac.

Lemma flow_needs i kp ka k' : flow i (kp, ka) = Some k' -> (fst (uses i) = true -> kp = true) /\ (snd (uses i) = true -> ka = true).
Proof.
  unfold flow. destruct (uses i) as [up ua0]. cbn [fst snd]. destruct (implb up kp && implb ua0 ka) eqn:E; [|discriminate]. intros _.
  destruct up, ua0, kp, ka; cbn in E; try discriminate; auto.
Qed.
Section Stop.
Variables (base : Z) (env : rt) (fp : fpu) (nat_ : Z -> option native) (junk : gpr -> Z) (mi : meth) (fe : fenv).
Notation run := (xrun base env fp nat_ junk).
Notation step := (xexec base env fp nat_ junk).
Definition stops (code : list xi) (k : nat) (x : xst) (P : Z -> xst -> Prop) : Prop := exists e x', run code k x = XErr e x' /\ P e x'.
Lemma stops_cons i rest x x1 P : is_jump i = false -> step i x = XOk x1 -> stops rest 0 x1 P -> stops (i :: rest) 0 x P.
Proof.
  intros J E (e & x' & R & H). exists e, x'. split; [|exact H]. destruct i; try discriminate J; cbn [xrun]; rewrite E; exact R.
Qed.
Lemma stops_skip i rest k x P : stops rest k x P -> stops (i :: rest) (S k) x P.
Proof. intros (e & x' & R & H). exists e, x'. auto. Qed.
Lemma stops_jump c n rest x f P : xf x = Some f -> stops rest (if cond c f then n else 0%nat) x P -> stops (JFwd c n :: rest) 0 x P.
Proof. intros E (e & x' & R & H). exists e, x'. split; [|exact H]. cbn [xrun]. rewrite E. destruct (cond c f); exact R. Qed.
Lemma stops_now c e rest x f (P : Z -> xst -> Prop) : xf x = Some f -> cond c f = true -> P e x -> stops (X64_Model.JErr c e :: rest) 0 x P.
Proof. intros E C H. exists e, x. split; [|exact H]. cbn [xrun xexec]. now rewrite E, C. Qed.
Lemma stops_not c e rest x f P : xf x = Some f -> cond c f = false -> stops rest 0 x P -> stops (X64_Model.JErr c e :: rest) 0 x P.
Proof. intros E C H. eapply stops_cons; [reflexivity| |exact H]. cbn [xexec]. now rewrite E, C. Qed.

Hypothesis US : user_space base.
Variables (r : rt) (p a : Z) (x : xst) (kp ka : bool).
Hypothesis SP : same_plugin env r.
Hypothesis RUN : running (mkIst r p a).
Hypothesis HO : holds base kp ka (mkIst r p a) x.
Hypothesis EM : xm x = mem r.
Local Notation ED := (ED base r p a x kp ka HO).
Local Notation ES := (ES base r p a x kp ka HO).
Local Notation EH := (EH base r p a x kp ka HO).
Local Notation EP := (EP base r p a x kp ka HO).
Local Notation EA := (EA base r p a x kp ka HO).
Local Notation EX := (EX base r p a x kp ka HO).
Local Notation ECF := (ECF base r p a x kp ka HO).
Local Notation ESC := (ESC base r p a x kp ka HO).
Local Notation sizes := (sizes r p a RUN).
Local Notation MS := (MS env r SP).
Local Notation G := (goes base env fp nat_ junk).
Ltac stepx := eapply stops_cons; [reflexivity|reflexivity|].

(* The address check lets through exactly the cells [open_cell] describes. *)
Lemma check_stops q z rest (P : Z -> xst -> Prop) : In q [RAX; RDX] -> is_i32 z -> xr x q = u32 z -> ~ open_cell r z ->
  (forall x', xm x' = xm x -> P SP_ERROR_MEMACCESS x') -> stops (emitCheckAddress env q 4 ++ rest) 0 x P.
Proof.
  intros Q0 Z32 Eq NR K. pose proof sizes as Z0. unfold emitCheckAddress. cbn [app]. stepx.
  assert (H32 : u32 (hp r) = hp r) by (apply u32_small; zl).
  assert (M32 : u32 (mem_size env - 4 + 1) = mem_size r - 3) by (rewrite MS; rewrite u32_small by zl; lia).
  destruct (Z_lt_ge_dec z 0) as [ZN|ZP].
  - eapply stops_now; [reflexivity| |now apply K]. cbn [cond cmp_flags cf mask setf xr]. rewrite Eq, u32_u32, M32, u32_neg by zl. zl.
  - assert (A32 : u32 z = z) by (apply u32_small; zl).
    destruct (Z_lt_ge_dec (mem_size r) (z + 4)) as [ZB|ZB].
    + eapply stops_now; [reflexivity| |now apply K]. cbn [cond cmp_flags cf mask setf xr]. rewrite Eq, u32_u32, M32, A32. lia.
    + assert (GAP : hp r <= z < sp r). { destruct (Z_lt_ge_dec z (hp r)); [|destruct (Z_lt_ge_dec z (sp r)); [lia|]]; exfalso; apply NR; unfold open_cell, in_gap; lia. }
      eapply stops_not; [reflexivity| |]. { cbn [cond cmp_flags cf mask setf xr]. rewrite Eq, u32_u32, M32, A32. lia. }
      stepx. eapply stops_jump; [reflexivity|]. cbn [cond cmp_flags cf mask setf xr xc load]. rewrite Eq, EH, !u32_u32, H32, A32.
      replace (z <? hp r) with false by lia. do 2 stepx. eapply stops_now; [reflexivity| |apply K; reflexivity].
      cbn [cond cmp_flags cf mask setf setr xr]. replace (gpr_eqb R14 RCX) with false by reflexivity. replace (gpr_eqb RCX RCX) with true by reflexivity.
      cbn [ea setf setr xr]. rewrite ED, Eq, A32, ES. rewrite (u64_id (base + z * 1 + 0)) by zl. rewrite !u64_id by zl. lia.
Qed.
Lemma check_goes q z rest P : In q [RAX; RDX] -> xr x q = u32 z -> open_cell r z ->
  (forall x', alike x x' -> G rest 0%nat x' P) -> G (emitCheckAddress env q 4 ++ rest) 0%nat x P.
Proof.
  intros Q0 Eq (R1 & R2 & R3) K. pose proof sizes as Z0. unfold in_gap in R3.
  assert (H32 : u32 (hp r) = hp r) by (apply u32_small; zl).
  assert (M32 : u32 (mem_size env - 4 + 1) = mem_size r - 3) by (rewrite MS; rewrite u32_small by zl; lia).
  assert (A32 : u32 z = z) by (apply u32_small; zl). unfold emitCheckAddress. cbn [app].
  eapply goes_cons; [reflexivity|reflexivity|].
  eapply go_cc; [reflexivity| |]. { cbn [cond cmp_flags cf mask setf xr]. rewrite Eq, u32_u32, M32, A32. lia. }
  eapply goes_cons; [reflexivity|reflexivity|]. eapply goes_jump; [reflexivity|]. cbn [cond cmp_flags cf mask setf xr xc load]. rewrite Eq, EH, !u32_u32, H32, A32.
  destruct (z <? hp r) eqn:E.
  - do 3 apply goes_skip. apply K. split; [|repeat split]. intros. reflexivity.
  - do 2 (eapply goes_cons; [reflexivity|reflexivity|]). eapply go_cc; [reflexivity| |].
    { cbn [cond cmp_flags cf mask setf setr xr]. replace (gpr_eqb R14 RCX) with false by reflexivity. replace (gpr_eqb RCX RCX) with true by reflexivity.
      cbn [ea setf setr xr]. rewrite ED, Eq, A32, ES. rewrite (u64_id (base + z * 1 + 0)) by zl. rewrite !u64_id by zl. lia. }
    apply K. split; [|repeat split]. intros q' Hq. cbn [setf setr xr]. destruct q'; try reflexivity. contradiction.
Qed.

(* ---- An access through a register never leaves the plugin's memory ---- *)
Lemma store32_only m z v : only_cell z m (store32 m z v).
Proof. intros b B. apply store32_out. lia. Qed.
Lemma access_in i c z : emit env nat_ mi i = Some c -> accesses i (mkIst r p a) = Some z ->
  (fst (uses i) = true -> kp = true) -> (snd (uses i) = true -> ka = true) -> open_cell r z ->
  exists x', run c 0%nat x = XOk x' /\ only_cell z (xm x) (xm x').
Proof.
  intros EMIT AC KP KA RE. pose proof sizes as Z0. pose proof RE as (R1 & R2 & _).
  assert (A32 : u32 z = z) by (apply u32_small; zl).
  assert (NX : forall y, alike x y -> xr y R15 = base) by (intros y (K & _); rewrite K by discriminate; apply ED).
  assert (MZ : z + 4 <= mem_size env) by (rewrite MS; exact R2).
  assert (MM : forall y, alike x y -> xm y = xm x) by (intros y (_ & _ & K & _); exact K).
  change (G c 0%nat x (fun x' => only_cell z (xm x) (xm x'))).
  destruct i; try discriminate AC; cbn [accesses pri alt] in AC; injection AC as AC; cbn [uses fst snd] in KP, KA; cbn [emit] in EMIT; injection EMIT as <-.
  - (* LOAD_I *) assert (Eq : xr x RAX = u32 z) by (rewrite <- AC; apply EP; auto). apply (check_goes RAX z); cbn [In]; auto. intros y AL.
    apply (go_load base env fp nat_ junk _ _ z); auto; [exact Logic.I| |].
    + rewrite (ea_idx base US _ _ z); [reflexivity|now apply NX|rewrite (proj1 AL) by discriminate; congruence|zl].
    + apply goes_nil. nx. rewrite (MM _ AL). intros b _. reflexivity.
  - (* LODB_I *) assert (Eq : xr x RAX = u32 z) by (rewrite <- AC; apply EP; auto). apply (check_goes RAX z); cbn [In]; auto. intros y AL. cbn [app].
    apply (go_load base env fp nat_ junk _ _ z); auto; [exact Logic.I| |].
    + rewrite (ea_idx base US _ _ z); [reflexivity|now apply NX|rewrite (proj1 AL) by discriminate; congruence|zl].
    + destruct (w =? 1); [|destruct (w =? 2)]; [eapply goes_cons; [reflexivity|reflexivity|]..|]; apply goes_nil; nx; rewrite (MM _ AL); intros b _; reflexivity.
  - (* STOR_I *) assert (Eq : xr x RDX = u32 z) by (rewrite <- AC; apply EA; auto). apply (check_goes RDX z); cbn [In]; auto. intros y AL.
    apply (go_store base env fp nat_ junk _ _ z); auto; [exact Logic.I| |].
    + rewrite (ea_idx base US _ _ z); [reflexivity|now apply NX|rewrite (proj1 AL) by discriminate; congruence|zl].
    + apply goes_nil. nx. rewrite (MM _ AL). apply store32_only.
  - (* STRB_I *) assert (Eq : xr x RDX = u32 z) by (rewrite <- AC; apply EA; auto). apply (check_goes RDX z); cbn [In]; auto. intros y AL.
    assert (EI : ea (Idx R15 RDX 1 0) y = base + z) by (rewrite (ea_idx base US _ _ z); [reflexivity|now apply NX|rewrite (proj1 AL) by discriminate; congruence|zl]).
    destruct (w =? 1); [|destruct (w =? 2); [|destruct (w =? 4)]].
    + eapply goes_cons; [reflexivity| |].
      { cbn [xexec]. rewrite EI. rewrite (ok_at_true base env z 1) by lia. reflexivity. }
      apply goes_nil. nx. rewrite (MM _ AL). intros b B. unfold fill_bytes. replace (base + z - base) with z by lia.
      replace ((z <=? b) && (b <? z + 1)) with false by lia. reflexivity.
    + apply (go_store base env fp nat_ junk _ _ z); auto; [exact Logic.I|]. apply goes_nil. nx. rewrite (MM _ AL). apply store32_only.
    + apply (go_store base env fp nat_ junk _ _ z); auto; [exact Logic.I|]. apply goes_nil. nx. rewrite (MM _ AL). apply store32_only.
    + apply goes_nil. rewrite (MM _ AL). intros b _. reflexivity.
Qed.
Lemma access_out i c z : emit env nat_ mi i = Some c -> accesses i (mkIst r p a) = Some z ->
  (fst (uses i) = true -> kp = true) -> (snd (uses i) = true -> ka = true) -> ~ open_cell r z ->
  exists x', run c 0%nat x = XErr SP_ERROR_MEMACCESS x' /\ xm x' = xm x.
Proof.
  intros EMIT AC KP KA RE.
  assert (H : stops c 0%nat x (fun e x' => e = SP_ERROR_MEMACCESS /\ xm x' = xm x)).
  { pose proof (rn_pri _ RUN) as P32. pose proof (rn_alt _ RUN) as A32. cbn [pri alt] in P32, A32.
    destruct i; try discriminate AC; cbn [accesses pri alt] in AC; injection AC as AC; cbn [uses fst snd] in KP, KA; cbn [emit] in EMIT; injection EMIT as <-.
    - apply (check_stops RAX z); cbn [In]; auto; rewrite <- AC; auto. apply EP; auto.
    - apply (check_stops RAX z); cbn [In]; auto; rewrite <- AC; auto. apply EP; auto.
    - apply (check_stops RDX z); cbn [In]; auto; rewrite <- AC; auto. apply EA; auto.
    - apply (check_stops RDX z); cbn [In]; auto; rewrite <- AC; auto. apply EA; auto. }
  destruct H as (e & x' & R & -> & M). eauto.
Qed.

(* ---- Where the interpreter stops, compiled code stops ---- *)
Notation F i e s' := (exec false fe nat_ mi i (mkIst r p a) = Fail e s').
Definition same_stop (i : instr) (e : err) (s' : ist) (e' : Z) (x' : xst) : Prop :=
  e' = stop_code i (mkIst r p a) e /\ forall z, xm x' z = mem (rts s') z.

Lemma access_fail i z e s' : accesses i (mkIst r p a) = Some z -> F i e s' -> ~ script_address r z /\ s' = mkIst r p a.
Proof.
  intros AC E. assert (D : script_address r z \/ ~ script_address r z).
  { destruct (bad_address r z) eqn:B; [right|left; now apply bad_address_spec]. intros H. apply bad_address_spec in H. congruence. }
  pose proof sizes as Z0. pose proof (proj1 (rn_bounds _ RUN)) as L0. cbn [rts] in L0.
  destruct D as [D|D].
  - exfalso. destruct i; try discriminate AC; cbn [accesses pri alt] in AC; injection AC as AC; cbn [exec] in E;
    unfold bind, getr, lift in E; cbn [rts pri alt regv] in E; rewrite AC in E.
    + rewrite getCellValue_ok in E by assumption. discriminate.
    + rewrite getCellValue_ok in E by assumption. destruct (w =? 1); [discriminate|]. destruct (w =? 2); [discriminate|]. destruct (w =? 4); discriminate.
    + rewrite setCellValue_ok in E by assumption. discriminate.
    + rewrite throwIfBadAddress_ok in E by assumption. destruct D as [D _].
      unfold wr8, wr16, wr32, in_mem in E. destruct (w =? 1); [|destruct (w =? 2); [|destruct (w =? 4); [|discriminate]]];
      match type of E with context [if ?b then _ else _] => destruct b; discriminate end.
  - split; [exact D|]. destruct i; try discriminate AC; cbn [accesses pri alt] in AC; injection AC as AC; cbn [exec] in E;
    unfold bind, getr, lift in E; cbn [rts pri alt regv] in E; rewrite AC in E.
    + rewrite getCellValue_bad in E by assumption. congruence.
    + rewrite getCellValue_bad in E by assumption. congruence.
    + unfold setCellValue, bind in E. rewrite throwIfBadAddress_bad in E by assumption. congruence.
    + rewrite throwIfBadAddress_bad in E by assumption. congruence.
Qed.
Lemma stop_access i c z e s' : emit env nat_ mi i = Some c -> accesses i (mkIst r p a) = Some z -> z <> stp r ->
  (fst (uses i) = true -> kp = true) -> (snd (uses i) = true -> ka = true) -> F i e s' ->
  stops c 0%nat x (same_stop i e s').
Proof.
  intros EMIT AC NB KP KA E. pose proof sizes as Z0. destruct (access_fail _ _ _ _ AC E) as [BAD ->].
  destruct (access_out i c z EMIT AC KP KA) as (x' & R & M).
  { intros (R1 & R2 & R3). apply BAD. split; [|exact R3]. lia. }
  exists SP_ERROR_MEMACCESS, x'. split; [exact R|]. split; [unfold stop_code; now rewrite AC|]. intros b. cbn [rts]. rewrite M. exact (ho_mem _ _ _ _ _ HO b).
Qed.

Lemma stop_BOUNDS n e s' (K1 : kp = true) : is_i32 n -> 0 <= n -> F (BOUNDS n) e s' ->
  stops [ CmpI L RAX n; X64_Model.JErr above (err_code ARRAY_BOUNDS) ] 0%nat x (same_stop (BOUNDS n) e s').
Proof.
  intros N N0 E. cbn [exec] in E. unfold bind, getr in E. cbn [regv pri alt] in E. destruct (u64 p >? u32 n) eqn:C; [|discriminate E]. injection E as <- <-.
  pose proof (rn_pri _ RUN) as P32. cbn [pri] in P32.
  destruct (cmp32 (u32 p) n p n P32 N (u32_u32 _) eq_refl) as (F1 & F2 & F3).
  stepx. eapply stops_now; [reflexivity| |].
  - nx. rewrite (EP K1). cbn [cond]. rewrite F1, F3. now rewrite (over_u64 p n).
  - split; [reflexivity|]. intros b. nx. exact (ho_mem _ _ _ _ _ HO b).
Qed.

Lemma check_div_fail d v s e s' : check_div d v s = Fail e s' -> s' = s /\ (v = 0 /\ e = DIVIDE_BY_ZERO \/ v = -1 /\ d = - two31 /\ e = INTEGER_OVERFLOW).
Proof.
  unfold check_div, fail, ret. destruct (v =? 0) eqn:V.
  - intros [= <- <-]. split; [reflexivity|]. left. split; [lia|reflexivity].
  - destruct ((v =? -1) && (d =? - two31)) eqn:O; [|discriminate]. intros [= <- <-]. split; [reflexivity|]. right. split; [lia|]. split; [lia|reflexivity].
Qed.
Lemma div_stops g d v e rest (P : Z -> xst -> Prop) : xr x (reg_of g) = u32 d -> xr x (reg_of (match g with Pri => Alt | Alt => Pri end)) = u32 v ->
  is_i32 d -> is_i32 v -> v = 0 /\ e = DIVIDE_BY_ZERO \/ v = -1 /\ d = - two31 /\ e = INTEGER_OVERFLOW ->
  (forall x', xm x' = xm x -> P (err_code e) x') -> stops (emitSDIV g ++ rest) 0%nat x P.
Proof.
  intros ED' EV D V H K. unfold emitSDIV. cbn [app]. stepx. destruct H as [(-> & ->) | (-> & -> & ->)].
  - eapply stops_now; [reflexivity| |now apply K]. nx. rewrite EV. reflexivity.
  - eapply stops_not; [reflexivity|nx; rewrite EV; reflexivity|]. stepx. eapply stops_jump; [reflexivity|]. nx. rewrite EV.
    change (cond not_equal (cmp_flags L (u32 (-1)) (-1))) with false. stepx. eapply stops_now; [reflexivity| |now apply K].
    nx. rewrite ED'. reflexivity.
Qed.
Lemma stop_div i g c rest e s' (K1 : kp = true) (K2 : ka = true) :
  In (i, g, rest) [(SDIV Pri, Pri, []); (SDIV Alt, Alt, []); (SDIV_ALT_I32, Alt, []); (SMOD_ALT_I32, Alt, [ MovRR L RAX RDX ])] ->
  c = emitSDIV g ++ rest -> F i e s' -> stops c 0%nat x (same_stop i e s').
Proof.
  intros IN -> E. pose proof (rn_pri _ RUN) as P32. pose proof (rn_alt _ RUN) as A32. cbn [pri alt] in P32, A32.
  assert (E' : check_div (regv (mkIst r p a) g) (regv (mkIst r p a) (match g with Pri => Alt | Alt => Pri end)) (mkIst r p a) = Fail e s').
  { cbn [In] in IN. repeat (destruct IN as [IN|IN]; [injection IN as <- <- <-|]); [..|contradiction]; cbn [exec] in E; unfold bind, getr in E; cbn [regv pri alt] in *;
    match type of E with context [check_div ?d ?v ?s] => destruct (check_div d v s) as [[] q|ee q|u] eqn:CD end; try discriminate E; injection E as <- <-; reflexivity. }
  apply check_div_fail in E'. destruct E' as [-> E'].
  apply (div_stops g (regv (mkIst r p a) g) (regv (mkIst r p a) (match g with Pri => Alt | Alt => Pri end)) e).
  - destruct g; [apply (EP K1)|apply (EA K2)].
  - destruct g; [apply (EA K2)|apply (EP K1)].
  - destruct g; assumption.
  - destruct g; assumption.
  - exact E'.
  - intros x' M. split; [|intros b; rewrite M; exact (ho_mem _ _ _ _ _ HO b)].
    cbn [In] in IN. repeat (destruct IN as [IN|IN]; [injection IN as <- <- <-|]); [reflexivity..|contradiction].
Qed.

Lemma stop_HEAP n e s' : is_i32 n -> n + mem_size r + 64 < two31 ->
  (if n <? 0 then 0 <= hp r + n else base mod two32 + hp r + n + 64 < two32) -> F (HEAP n) e s' ->
  stops (emitHEAP env n) 0%nat x (same_stop (HEAP n) e s').
Proof.
  intros N B C E. pose proof sizes as Z0. cbn [exec] in E. unfold bind, lift in E. cbn [rts pri alt] in E.
  rewrite heapAlloc_eq in E; [|exact (rn_bounds _ RUN)|split; zl]. unfold emitHEAP.
  assert (DS : data_size env = data_size r) by (symmetry; apply SP).
  assert (E1 : u32 (u32 (hp r) + n) = hp r + n). { rewrite u32_addr. apply u32_small. destruct (n <? 0) eqn:NS; zl. }
  assert (H32 : u32 (hp r) = hp r) by (apply u32_small; zl).
  destruct (n <? 0) eqn:NS; cbn [app].
  - destruct (hp r + n <? data_size r) eqn:D; [|discriminate E]. injection E as <- <-.
    do 2 stepx. stepx. eapply stops_now; [reflexivity| |].
    + nx. cbn [load cond cmp_flags cf mask]. nx. rewrite EH, E1, !DS, !u32_u32. rewrite !u32_small by zl. lia.
    + split; [reflexivity|]. nx. exact (ho_mem _ _ _ _ _ HO).
  - destruct (hp r + n + 64 >? sp r) eqn:D; [|discriminate E]. injection E as <- <-.
    do 2 stepx. do 3 stepx. eapply stops_now; [reflexivity| |].
    + nx. cbn [ea]. nx. cbn [load cfield_eqb xc setc]. nx. rewrite EH, E1, ED, ES. rewrite (u32_small (hp r + n)) by zl.
      replace (base + (hp r + n) * 1 + STACK_MARGIN) with (base + (hp r + n + 64)) by (unfold STACK_MARGIN; lia).
      rewrite u64_id by zl. apply window_over; [exact US|lia|lia].
    + split; [reflexivity|]. nx. exact (ho_mem _ _ _ _ _ HO).
Qed.

Lemma stop_NATIVE n k nt e s' : is_i32 k -> nat_ n = Some nt -> hp r + 4 < sp r ->
  match n_fn nt with None => True | Some f => n_repl nt = None /\ forall v r', pushStack k r = Ok tt r' -> forall r2, f r' <> Ok v r2 end ->
  F (SYSREQ_N n k) e s' -> stops (emitNative n k) 0%nat x (same_stop (SYSREQ_N n k) e s').
Proof.
  intros K0 NN RM NF E. pose proof sizes as Z0. cbn [exec] in E. rewrite NN in E.
  set (r1 := set_mem (store32 (mem r) (sp r - 4) k) (set_sp (sp r - 4) r)) in *.
  assert (PS : pushStack k r = Ok tt r1).
  { rewrite pushStack_eq by exact (rn_bounds _ RUN). replace (sp r <=? hp r + 4) with false by lia. reflexivity. }
  assert (E1 : (lift (pushStack k);;; invokeNative nat_ n;;; lift (pop_n (Z.to_nat (u32 (k + 1))))) (mkIst r p a) = Fail e s').
  { destruct (n_fn nt); [destruct NF as [NR _]; rewrite NR in E|]; exact E. } clear E.
  unfold bind, lift, invokeNative in E1. cbn [rts pri alt] in E1. rewrite PS, NN in E1. cbn [rts pri alt] in E1.
  unfold emitNative.
  eapply stops_cons; [reflexivity| |].
  { cbn [xexec]. rewrite (store_L base env (At R14 (-4)) k x (sp r - 4)); [reflexivity|exact Logic.I| |zl|rewrite MS; zl].
    rewrite (ea_at base US _ _ _ (sp r)); [lia|rewrite ES; lia|zl]. }
  do 4 stepx. do 2 stepx. nx. cbn [eval_alu] in *.
  match goal with |- stops (CallNative _ :: _) _ ?y _ => assert (SE : seen env y = r1) end.
  { apply seen_eq; subst r1; nx; cbn [eval_alu].
    - destruct SP. constructor; assumption.
    - now rewrite EM, wrap32_id by exact K0.
    - exact EH.
    - rewrite ES, ED, stk_sub by zl. replace (base + (sp r - 4) - base) with (sp r - 4) by lia. now rewrite u32_u64.
    - exact ECF.
    - exact ESC.
    - zl.
    - zl.
    - zl.
    - apply Z0. }
  destruct (n_fn nt) as [f|] eqn:FN.
  - destruct NF as [_ NF]. cbn [rts pri alt] in E1. destruct (f r1) as [v r2|ee r2|u] eqn:FF.
    + exfalso. exact (NF v r1 PS r2 FF).
    + injection E1 as <- <-. eapply stops_cons; [reflexivity|cbn [xexec]; rewrite NN, FN, SE, FF; reflexivity|]. unfold after_call. nx.
      do 4 stepx. exists (err_code ee). eexists. split; [cbn [xrun xexec]; nx; reflexivity|]. split; [reflexivity|]. nx. reflexivity.
    + discriminate E1.
  - unfold fail in E1. injection E1 as <- <-. eapply stops_cons; [reflexivity|cbn [xexec]; rewrite NN, FN, SE; reflexivity|]. unfold after_call. nx.
      do 4 stepx. exists (err_code INVALID_NATIVE). eexists. split; [cbn [xrun xexec]; nx; reflexivity|]. split; [reflexivity|]. nx. reflexivity.
Qed.

Lemma stop_exec i c k' e s' : emit env nat_ mi i = Some c -> flow i (kp, ka) = Some k' -> Forall is_i32 (operands i) ->
  checks base nat_ (mkIst r p a) i -> F i e s' -> stops c 0%nat x (same_stop i e s').
Proof.
  intros EMIT FL OPS CK E. apply flow_needs in FL. destruct FL as [KP KA].
  destruct i; try (exact (False_ind _ CK)); cbn [checks pri alt rts] in CK; cbn [uses fst snd] in KP, KA; cbn [operands] in OPS.
  - apply (stop_access LOAD_I c p e s'); auto.
  - apply (stop_access (LODB_I w) c p e s'); auto.
  - apply (stop_access STOR_I c a e s'); auto.
  - apply (stop_access (STRB_I w) c a e s'); auto.
  - cbn [emit] in EMIT. injection EMIT as <-. destruct CK. apply stop_HEAP; auto. eapply one_op; eauto.
  - cbn [emit] in EMIT. injection EMIT as <-. apply (stop_div (SDIV r0) r0 _ []); auto. destruct r0; cbn [In]; auto.
  - cbn [emit] in EMIT. injection EMIT as <-. apply (stop_div SDIV_ALT_I32 Alt _ []); auto. cbn [In]; auto.
  - cbn [emit] in EMIT. injection EMIT as <-. apply (stop_div SMOD_ALT_I32 Alt _ [ MovRR L RAX RDX ]); auto. cbn [In]; auto.
  - cbn [emit] in EMIT. injection EMIT as <-. apply stop_BOUNDS; auto. eapply one_op; eauto.
  - destruct CK as (RM & nt & NN & NF). assert (EC : c = emitNative n k).
    { cbn [emit] in EMIT. rewrite NN in EMIT. destruct (n_fn nt) as [f|]; [destruct NF as [NR _]; rewrite NR in EMIT|]; congruence. }
    subst c. eapply stop_NATIVE; eauto. eapply two_op; eauto.
Qed.
End Stop.


Theorem stop_step base env fp nat_ junk fe mi s s' x kp ka i c k' e : user_space base -> natives_ok nat_ ->
  same_plugin env (rts s) -> running s -> holds base kp ka s x ->
  emit env nat_ mi i = Some c -> flow i (kp, ka) = Some k' -> Forall is_i32 (operands i) -> checks base nat_ s i ->
  exec false fe nat_ mi i s = Fail e s' ->
  exists x', xrun base env fp nat_ junk c 0 x = XErr (stop_code i s e) x' /\ forall a, xm x' a = mem (rts s') a.
Proof.
  intros US NAT SP RUN HO EM FL OPS CK E. destruct s as [r p a].
  assert (M : forall b, xm x b = mem r b) by exact (ho_mem _ _ _ _ _ HO).
  set (s2 := mkIst (set_mem (xm x) r) p a).
  assert (RL : reli (mkIst r p a) s2) by (split; [split; [now apply same_rt_set|exact (rn_bytes _ RUN)]|split; reflexivity]).
  pose proof (exec_respi false fe nat_ mi NAT i _ _ RL) as X. rewrite E in X.
  destruct (exec false fe nat_ mi i s2) as [|e2 s2'|] eqn:E2; cbn in X; try contradiction. destruct X as [<- R].
  assert (RUN2 : running s2) by exact (running_same (mkIst r p a) (xm x) M RUN).
  assert (HO2 : holds base kp ka s2 x) by (destruct HO; constructor; auto).
  assert (CK2 : checks base nat_ s2 i).
  { destruct i; try exact CK. destruct CK as (RM & nt & NN & NF). split; [exact RM|]. exists nt. split; [exact NN|].
    destruct (n_fn nt) as [f|] eqn:FN; [|exact Logic.I]. destruct NF as [NR NF]. split; [exact NR|]. intros v r' PS r2 FF.
    pose proof (resp_push k _ _ (proj1 RL)) as RP. cbn [rts s2] in RP. change (rts s2) with (set_mem (xm x) r) in PS. rewrite PS in RP.
    destruct (pushStack k r) as [[] r1| |] eqn:PS1; cbn in RP; try contradiction. destruct RP as [_ [RP _]].
    pose proof (na_same _ (NAT n nt f NN FN) _ _ RP) as RF. rewrite FF in RF. destruct (f r1) as [v1 r3| |] eqn:F1; cbn in RF; try contradiction.
    destruct RF as [<- _]. exact (NF v1 r1 PS1 r3 F1). }
  assert (SP2 : same_plugin env (set_mem (xm x) r)) by (destruct SP; constructor; assumption).
  destruct (stop_exec base env fp nat_ junk mi fe US (set_mem (xm x) r) p a x kp ka SP2 RUN2 HO2 eq_refl i c k' e s2' EM FL OPS CK2 E2) as (e' & x' & X & -> & H).
  exists x'. split.
  - rewrite X. destruct i; reflexivity.
  - intros b. rewrite H. apply R.
Qed.

(* Accesses through a register, whatever the register holds. *)
Theorem access_confined base env fp nat_ junk mi s x kp ka i c k' a : user_space base -> natives_ok nat_ ->
  same_plugin env (rts s) -> running s -> holds base kp ka s x ->
  emit env nat_ mi i = Some c -> flow i (kp, ka) = Some k' -> accesses i s = Some a ->
  (open_cell (rts s) a -> exists x', xrun base env fp nat_ junk c 0 x = XOk x' /\ only_cell a (xm x) (xm x')) /\
  (~ open_cell (rts s) a -> exists x', xrun base env fp nat_ junk c 0 x = XErr SP_ERROR_MEMACCESS x' /\ xm x' = xm x).
Proof.
  intros US NAT SP RUN HO EM FL AC. apply flow_needs in FL. destruct FL as [KP KA]. destruct s as [r p q].
  split; intros R.
  - eapply access_in; eauto.
  - eapply access_out; eauto.
Qed.
