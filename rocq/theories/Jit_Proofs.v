(* Compiled control flow follows the interpreter: C46. *)
From Verif Require Import Base Rtti_Model Rt_Model Array_Model Interp_Model Rt_Spec Mem_Spec Cfg_Model Cfg_Spec Dom_Model Dom_Spec X64_Model X64_Spec Jit_Model Jit_Spec.
From Verif Require Import Base_Proofs Rt_Proofs Cfg_Proofs Dom_Proofs Dom_Build X64_Ext X64_Step X64_Arith X64_Sim X64_Proofs.
From Coq Require Import ZifyBool Lia.
Ltac Zify.zify_post_hook ::= Z.div_mod_to_equations.

Lemma wrap32_addl a b : wrap32 (wrap32 a + b) = wrap32 (a + b). Proof. unfold wrap32. unb. lia. Qed.
Lemma wrap32_subr a b : wrap32 (a - wrap32 b) = wrap32 (a - b). Proof. unfold wrap32. unb. lia. Qed.
Lemma u32_sub_zero a c : 0 <= c < two32 -> (u32 (a - c) =? 0) = (u32 a =? c). Proof. unfold u32. unb. lia. Qed.
Lemma index_back p v : is_i32 p -> wrap32 (v + u32 (p - v)) = p. Proof. unfold wrap32, u32. unb. lia. Qed.
Lemma index_only p v k : is_i32 p -> 0 <= k < two32 -> wrap32 (v + k) = p -> k = u32 (p - v). Proof. unfold wrap32, u32. unb. lia. Qed.
Lemma index_wrap z p v : u32 z = u32 (p - v) -> u32 (p - v) < two31 -> wrap32 z = u32 (p - v). Proof. unfold wrap32, u32. unb. lia. Qed.
Ltac Zify.zify_post_hook ::= idtac.

(* ---- The order of the blocks ---- *)
Lemma following_next l b t : NoDup l -> In b l -> In t l -> id_of l t = id_of l b + 1 -> following b l = Some t.
Proof.
  induction l as [|x l IH]; intros ND Hb Ht E; [destruct Hb|]. inversion ND as [|? ? NI ND']; subst. cbn [following id_of] in *.
  destruct (Z.eqb_spec x b) as [->|NE].
  - destruct (Z.eqb_spec b t) as [->|NT]; [lia|]. destruct Ht as [Ht|Ht]; [contradiction|].
    destruct l as [|y l]; [destruct Ht|]. cbn [id_of] in E. destruct (Z.eqb_spec y t) as [->|NY]; [reflexivity|].
    pose proof (proj1 (id_pos l t)) as P. destruct Ht as [Ht|Ht]; [contradiction|]. specialize (P Ht).
    destruct (id_of l t) eqn:Q; [lia| |lia]. destruct (Z.pos p + 1) eqn:Q2; lia.
  - destruct Hb as [Hb|Hb]; [contradiction|]. pose proof (proj1 (id_pos l b) Hb) as P.
    destruct (Z.eqb_spec x t) as [->|NT]; [destruct (id_of l b) eqn:Q; lia|]. destruct Ht as [Ht|Ht]; [contradiction|].
    pose proof (proj1 (id_pos l t) Ht) as P2. destruct l as [|y l]; [destruct Hb|]. apply IH; auto.
    destruct (id_of (y :: l) b) eqn:Q, (id_of (y :: l) t) eqn:Q2; lia.
Qed.

(* ---- Jumps ---- *)
Lemma cond_invert c c' f : invert c = Some c' -> cond c' f = negb (cond c f).
Proof. destruct c; cbn; intros [= <-]; cbn [cond]; rewrite ?negb_involutive; reflexivity. Qed.

Section Ends.
Variables (base : Z) (env : rt) (fp : fpu) (natives : Z -> option native) (junk : gpr -> Z).
Notation TR := (trun base env fp natives junk).
Notation EN := (entered).

(* [x'] has the registers a state is held in. *)
Definition sameish (x x' : xst) : Prop :=
  (forall q, q <> RCX -> q <> RSI -> q <> RDI -> xr x' q = xr x q) /\ xc x' = xc x /\ xm x' = xm x /\ exn x' = exn x.
Lemma sameish_refl x : sameish x x. Proof. repeat split. Qed.
Lemma sameish_holds kp ka s x x' : sameish x x' -> holds base kp ka s x -> holds base kp ka s x'.
Proof.
  intros (R & C & M & X) []. constructor; rewrite ?R, ?C, ?X by discriminate; auto. intros a. rewrite M. auto.
Qed.

Section Block.
Variables (rpo : list Z) (b : Z).
Hypothesis ND : NoDup rpo.
Hypothesis INB : In b rpo.

Lemma to_next t x : In t rpo -> isNextBlock rpo b t = true -> EN rpo b (TOn x) = JAt false (mkJat t t x).
Proof.
  unfold isNextBlock. rewrite Z.eqb_eq. intros I0 E. cbn [entered]. now rewrite (following_next rpo b t ND INB I0 E).
Qed.
Lemma to_or_fall t x : In t rpo -> EN rpo b (TR (if isNextBlock rpo b t then [] else [ TJmp t ]) x) = JAt false (mkJat t t x).
Proof. intros I0. destruct (isNextBlock rpo b t) eqn:N; cbn [trun]; [now apply to_next|reflexivity]. Qed.

Lemma jump_goes t x : In t rpo -> exists rec, run_end base env fp natives junk rpo b (emitJUMP rpo b [t]) x = JAt rec (mkJat t t x) /\
  (rec = false -> id_of rpo b < id_of rpo t).
Proof.
  intros I0. unfold run_end, emitJUMP. destruct (isNextBlock rpo b t) eqn:N.
  - exists false. split; [now apply to_next|]. unfold isNextBlock in N. lia.
  - destruct (isBackedge rpo b t) eqn:B; cbn [trun entered]; eexists; (split; [reflexivity|]); unfold isBackedge in B; [discriminate|lia].
Qed.

(* The comparison the conditional jump makes. *)
Definition jtest (c : cmpop) : xi := match c with Zero | NotZero => Test L RAX RAX | _ => Cmp L RAX RDX end.
Definition jcond (c : cmpop) : ccode := match c with Zero => equal | NotZero => not_equal | _ => OpToCondition c end.
Lemma emitJcmp_eq fall target c : emitJcmp rpo b [fall; target] c =
  (let rest := if isNextBlock rpo b fall then [] else [ TJmp fall ] in
   if isBackedge rpo b target then Some (TC (jtest c) :: TJcc32 (jcond c) target :: rest)
   else if isNextBlock rpo b target then match invert (jcond c) with Some nc => Some [ TC (jtest c); TJcc nc fall ] | None => None end
   else Some (TC (jtest c) :: TJcc (jcond c) target :: rest)).
Proof. destruct c; reflexivity. Qed.
Lemma invert_jcond c : exists nc, invert (jcond c) = Some nc. Proof. destruct c; eexists; reflexivity. Qed.

Lemma jcmp_goes fall target c x f : In fall rpo -> In target rpo ->
  xexec base env fp natives junk (jtest c) x = XOk (setf (Some f) x) ->
  let t := if cond (jcond c) f then target else fall in
  exists rec, run_end base env fp natives junk rpo b (emitJcmp rpo b [fall; target] c) x = JAt rec (mkJat t t (setf (Some f) x)) /\
    (rec = false -> id_of rpo b < id_of rpo target \/ cond (jcond c) f = false).
Proof.
  intros IF IT E t. rewrite emitJcmp_eq. cbv zeta. destruct (isBackedge rpo b target) eqn:B.
  - cbn [run_end trun]. rewrite E. cbn [xf setf]. unfold t. destruct (cond (jcond c) f).
    + exists true. split; [reflexivity|discriminate].
    + exists false. split; [now apply to_or_fall|auto].
  - assert (LT : id_of rpo b < id_of rpo target) by (unfold isBackedge in B; lia).
    destruct (isNextBlock rpo b target) eqn:N.
    + destruct (invert_jcond c) as (nc & NC). rewrite NC. cbn [run_end trun]. rewrite E. cbn [xf setf]. rewrite (cond_invert _ _ _ NC). unfold t.
      destruct (cond (jcond c) f); cbn [negb]; exists false; (split; [|auto]); [now apply to_next|reflexivity].
    + cbn [run_end trun]. rewrite E. cbn [xf setf]. unfold t.
      destruct (cond (jcond c) f); exists false; (split; [|auto]); [reflexivity|now apply to_or_fall].
Qed.

(* ---- Switches ---- *)
Fixpoint pick (v : Z) (vs ts : list Z) (d : Z) : Z :=
  match vs, ts with
  | v0 :: vs', t :: ts' => if v0 =? v then t else pick v vs' ts' d
  | _, _ => d
  end.
Lemma pick_in v vs : forall ts d, In (pick v vs ts d) (d :: ts).
Proof.
  induction vs as [|v0 vs IH]; intros [|t ts] d; cbn [pick]; try now left. destruct (v0 =? v); [right; now left|].
  destruct (IH ts d) as [H|H]; [left|right; right]; assumption.
Qed.
Lemma cmpi_eq A p v : is_i32 p -> is_i32 v -> u32 A = u32 p -> cond equal (cmp_flags L A v) = (v =? p).
Proof. intros P V E. cbn [cond]. rewrite (proj1 (cmp32 A v p v P V E eq_refl)). apply Z.eqb_sym. Qed.

Lemma chain_goes p d : is_i32 p -> In d rpo -> forall vs ts x, Forall is_i32 vs -> length ts = length vs -> xr x RAX = u32 p ->
  exists x', EN rpo b (TR (if_chain vs ts ++ [ TJmp d ]) x) = JAt false (mkJat (pick p vs ts d) (pick p vs ts d) x') /\ sameish x x'.
Proof.
  intros P D. induction vs as [|v vs IH]; intros [|t ts] x F LEN E; try discriminate LEN.
  - exists x. split; [reflexivity|apply sameish_refl].
  - inversion F as [|? ? V F']; subst. cbn [if_chain app pick trun]. unfold xexec at 1. cbn [xf setf].
    assert (EA : u32 (xr x RAX) = u32 p) by (rewrite E; apply u32_u32).
    rewrite (cmpi_eq _ p v P V EA). destruct (v =? p).
    + eexists. split; [reflexivity|]. repeat split.
    + destruct (IH ts (setf (Some (cmp_flags L (xr x RAX) v)) x) F' ltac:(cbn in LEN; lia) E) as (x' & X & S). exists x'. split; [exact X|].
      destruct S as (S1 & S2 & S3 & S4). repeat split; auto.
Qed.

Lemma sequential_nth vs : forall v k, sequential v vs = true -> (k < length vs)%nat -> nth k vs 0 = wrap32 (v + Z.of_nat k + 1).
Proof.
  induction vs as [|w vs IH]; intros v k H K; [cbn in K; lia|]. cbn [sequential] in H. apply andb_true_iff in H. destruct H as [H1 H2]. apply Z.eqb_eq in H1.
  destruct k as [|k]; [cbn [nth]; rewrite H1; f_equal; lia|]. cbn [nth]. rewrite (IH _ _ H2) by (cbn in K; lia).
  rewrite <- Z.add_assoc, wrap32_addl. f_equal. lia.
Qed.
Lemma pick_nth p vs : forall ts d k, length ts = length vs -> (k < length vs)%nat -> nth k vs 0 = p -> (forall j, (j < k)%nat -> nth j vs 0 <> p) ->
  pick p vs ts d = nth k ts 0.
Proof.
  induction vs as [|v vs IH]; intros [|t ts] d k LEN K E N; try discriminate LEN; [cbn in K; lia|]. cbn [pick].
  destruct (Z.eqb_spec v p) as [->|NE].
  - destruct k as [|k]; [reflexivity|]. exfalso. apply (N 0%nat); [lia|reflexivity].
  - destruct k as [|k]; [contradiction|]. cbn [nth] in *. apply IH; [cbn in LEN; lia|cbn in K; lia|exact E|].
    intros j J. apply (N (Datatypes.S j)). lia.
Qed.
Lemma pick_none p vs : forall ts d, (forall k, (k < length vs)%nat -> nth k vs 0 <> p) -> pick p vs ts d = d.
Proof.
  induction vs as [|v vs IH]; intros [|t ts] d N; try reflexivity. cbn [pick]. destruct (Z.eqb_spec v p) as [->|NE].
  - exfalso. apply (N 0%nat); [cbn; lia|reflexivity].
  - apply IH. intros k K. apply (N (Datatypes.S k)). cbn. lia.
Qed.
Lemma last_nth (l : list Z) d : l <> [] -> last l d = nth (length l - 1) l 0.
Proof.
  induction l as [|x l IH]; intros H; [contradiction|]. destruct l as [|y l]; [reflexivity|].
  change (last (x :: y :: l) d) with (last (y :: l) d). rewrite IH by discriminate. cbn [length]. rewrite !Nat.sub_succ, Nat.sub_0_r. reflexivity.
Qed.

Lemma switch_goes p d ts vs tab x : is_i32 p -> Forall is_i32 vs -> length ts = length vs -> Z.of_nat (length vs) < two31 -> In d rpo ->
  xr x RAX = u32 p -> (uses_table vs = true -> tab = map Some ts) ->
  let t := pick p vs ts d in
  exists x', run_end base env fp natives junk rpo b (emitSWITCH rpo b (d :: ts) vs tab) x = JAt false (mkJat t t x') /\ sameish x x'.
Proof.
  intros P F LEN SM D E TB. unfold emitSWITCH. rewrite LEN, Z.eqb_refl. cbn [negb].
  destruct vs as [|v vs]; [|destruct ts as [|t1 ts]; [discriminate LEN|]].
  { destruct ts; [|discriminate LEN]. cbn [pick run_end]. exists x. split; [now apply to_or_fall|apply sameish_refl]. }
  inversion F as [|? ? V F']; subst. destruct vs as [|v2 vs].
  { destruct ts; [|discriminate LEN]. cbn [pick run_end trun]. unfold xexec at 1. cbn [xf setf].
    rewrite (cmpi_eq _ p v P V) by (rewrite E; apply u32_u32). destruct (v =? p).
    - eexists. split; [reflexivity|]. repeat split.
    - eexists. split; [now apply to_or_fall|]. repeat split. }
  set (vs' := v2 :: vs) in *. set (ts' := t1 :: ts) in *.
  change (uses_table (v :: vs')) with (negb (v =? - two31) && sequential v vs') in *.
  destruct (negb (v =? - two31) && sequential v vs') eqn:SQ; [|now apply chain_goes]. rewrite (TB eq_refl). clear TB.
  apply andb_true_iff in SQ. destruct SQ as [NM SQ]. cbn [run_end].
  set (n := Z.of_nat (length (v :: vs'))) in *.
  assert (NTH : forall k, (k < length (v :: vs'))%nat -> nth k (v :: vs') 0 = wrap32 (v + Z.of_nat k)).
  { intros [|k] K; [cbn [nth]; rewrite Z.add_0_r, wrap32_id; auto|]. cbn [nth]. rewrite (sequential_nth _ _ _ SQ) by (cbn [length] in K; lia). f_equal. lia. }
  assert (LAST : last (v :: vs') v = wrap32 (v + (n - 1))).
  { rewrite last_nth by discriminate. rewrite NTH by (cbn [length]; lia). f_equal. unfold n. cbn [length] in *. lia. }
  assert (N2 : 2 <= n) by (unfold n, vs'; cbn [length]; lia).
  assert (ABS : Z.abs (wrap32 (v - last (v :: vs') v)) = n - 1).
  { rewrite LAST, wrap32_subr. replace (v - (v + (n - 1))) with (- (n - 1)) by lia. rewrite wrap32_id; [lia|]. unfold is_i32, two31 in *. lia. }
  change (last vs' v) with (last (v :: vs') v). rewrite ABS.
  set (i1 := if v =? 0 then MovRR L RCX RAX else Lea RCX (At RAX (- v))).
  assert (I1 : exists z, xexec base env fp natives junk i1 x = XOk (setr RCX z x) /\ u32 z = u32 (p - v)).
  { unfold i1. destruct (Z.eqb_spec v 0) as [->|NZ].
    - eexists. split; [reflexivity|]. cbn [mask]. rewrite E, !u32_u32. f_equal. lia.
    - eexists. split; [reflexivity|]. cbn [ea]. rewrite u32_u64, E, u32_addr. f_equal. }
  destruct I1 as (z & I1 & Z1). cbn [trun]. rewrite I1. unfold xexec at 1. cbn [xf setf cond cmp_flags zf cf mask setr xr].
  change (gpr_eqb RCX RCX) with true. cbv iota.
  rewrite <- (u32_subr z), Z1, u32_subr. rewrite (u32_small (n - 1)) by (unfold two31, two32 in *; lia).
  rewrite u32_sub_zero by (unfold two31, two32 in *; lia). set (q := u32 (p - v)) in *. assert (Q : 0 <= q < two32) by apply u32_bounds.
  destruct (negb ((q <? n - 1) || (q =? n - 1))) eqn:AB.
  - assert (NO : pick p (v :: vs') ts' d = d).
    { apply pick_none. intros k K H. rewrite (NTH k K) in H. apply index_only in H; [fold q in H|exact P|]; unfold n, two31, two32 in *; lia. }
    rewrite NO. eexists. split; [reflexivity|]. repeat split. intros g H1 H2 H3. cbn [xr setf setr]. destruct g; try reflexivity. contradiction.
  - assert (QN : q < n) by lia.
    assert (YES : pick p (v :: vs') ts' d = nth (Z.to_nat q) ts' 0).
    { apply pick_nth; [exact LEN|unfold n in *; lia| |].
      - rewrite NTH by (unfold n in *; lia). rewrite Z2Nat.id by lia. now apply index_back.
      - intros j J H. rewrite NTH in H by (unfold n in *; lia). apply index_only in H; [fold q in H|exact P|]; unfold n, two31, two32 in *; lia. }
    cbn [xr setf setr]. change (gpr_eqb RCX RCX) with true. cbv iota. rewrite (index_wrap z p v Z1) by (fold q; unfold two31 in *; lia). fold q.
    rewrite map_length, LEN. fold n. replace ((0 <=? q) && (q <? n)) with true by lia.
    rewrite (nth_indep _ None (Some 0)) by (rewrite map_length, LEN; unfold n in *; lia). rewrite (map_nth Some), YES. eexists. split; [reflexivity|].
    repeat split. intros g H1 H2 H3. cbn [xr setf setr]. destruct g; try reflexivity; contradiction.
Qed.
End Block.
End Ends.

(* ---- Where a block ends ---- *)
Section Span.
Variables (code : list Z) (m : Z) (targets : list Z) (b : Z).
Notation span := (span code m targets b).
Definition stops (c : Z) : Prop := joins targets b c \/ is_control (cell_at code c) = true.
Inductive nth_span : nat -> Z -> Prop :=
| ns_first : nth_span 0 (first_of m b)
| ns_next n c : nth_span n c -> ~ stops c -> nth_span (Datatypes.S n) (c + insn_size code c).
Lemma span_nth c : span c -> exists n, nth_span n c.
Proof.
  induction 1 as [|c _ (n & IH) J C]; [exists 0%nat; constructor|]. exists (Datatypes.S n). constructor; [exact IH|]. intros [H|H]; [auto|congruence].
Qed.
Lemma ns_inv n c : nth_span n c ->
  match n with O => c = first_of m b | Datatypes.S k => exists a, nth_span k a /\ c = a + insn_size code a end.
Proof. intros [|k a H N]; [reflexivity|exists a; auto]. Qed.
Lemma nth_fun n : forall c c', nth_span n c -> nth_span n c' -> c = c'.
Proof.
  induction n as [|n IH]; intros c c' H H'; apply ns_inv in H; apply ns_inv in H'; [congruence|].
  destruct H as (a & H & ->), H' as (a' & H' & ->). now rewrite (IH _ _ H H').
Qed.
Lemma nth_before n c : nth_span n c -> forall k, (k < n)%nat -> exists c', nth_span k c' /\ ~ stops c'.
Proof.
  induction 1 as [|n c H IH S]; intros k K; [lia|]. destruct (Nat.eq_dec k n) as [->|NE]; [exists c; auto|]. apply IH. lia.
Qed.
Lemma nth_stop n c n0 c0 : nth_span n c -> nth_span n0 c0 -> stops c0 -> (n <= n0)%nat.
Proof.
  intros H H0 S. destruct (Nat.le_gt_cases n n0) as [L|L]; [exact L|]. destruct (nth_before n c H n0 L) as (c' & H' & N).
  rewrite (nth_fun _ _ _ H' H0) in N. contradiction.
Qed.
Lemma one_stop c c0 : span c -> span c0 -> stops c -> stops c0 -> c = c0.
Proof.
  intros S S0 T T0. destruct (span_nth c S) as (n & H), (span_nth c0 S0) as (n0 & H0).
  pose proof (nth_stop _ _ _ _ H H0 T0). pose proof (nth_stop _ _ _ _ H0 H T). assert (n = n0) as -> by lia. exact (nth_fun _ _ _ H H0).
Qed.

Hypothesis CO : code_ok code.
Hypothesis M0 : 0 <= m.
Hypothesis CK : counts_ok code m.
Hypothesis AC : accepted code m.

Lemma size_pos pc : reaches code m pc -> 0 < insn_size code pc.
Proof.
  intros R0. destruct (accepted_walk code m CO AC) as (pr & K & P & KW & W0).
  pose proof (reaches_walk code m pr K P KW W0 pc R0) as W. apply walk_in in W.
  destruct P as (P0 & P & P1). destruct (P pc W) as (S & _). exact (proj1 (scanned_pos code m CO CK _ _ S)).
Qed.
Lemma not_stop_falls c : reaches code m c -> ~ stops c -> falls_through code c.
Proof.
  intros R0 NS. assert (NC : is_control (cell_at code c) = false) by (destruct (is_control (cell_at code c)) eqn:E; [exfalso; apply NS; now right|reflexivity]).
  pose proof (proj1 (proj2 (flow_ok code m CO c AC R0))) as D. pose proof (not_control_decode code c NC) as N.
  unfold falls_through. destruct (decode code c) as [i|]; [|contradiction]. destruct i; exact N || exact Logic.I.
Qed.
Lemma ahead n0 c0 n : forall c, nth_span n c -> nth_span n0 c0 -> stops c0 -> reaches code m c -> (n < n0)%nat -> c < c0.
Proof.
  remember (n0 - n)%nat as k eqn:K. revert n K. induction k as [|k IH]; intros n K c H H0 S R0 L; [lia|].
  destruct (nth_before n0 c0 H0 n L) as (c' & H' & N). assert (c' = c) as -> by exact (nth_fun _ _ _ H' H).
  pose proof (size_pos c R0) as P. pose proof (ns_next n c H N) as H1.
  assert (R1 : reaches code m (c + insn_size code c)) by (apply reach_fall; [exact R0|now apply not_stop_falls]).
  destruct (Nat.eq_dec (Datatypes.S n) n0) as [E|E].
  - rewrite E in H1. rewrite <- (nth_fun _ _ _ H1 H0). lia.
  - pose proof (IH (Datatypes.S n) ltac:(lia) _ H1 H0 S R1 ltac:(lia)). lia.
Qed.
Lemma ahead_le c c0 : span c -> span c0 -> stops c0 -> reaches code m c -> c <= c0.
Proof.
  intros H H0 S R0. destruct (span_nth c H) as (n & N), (span_nth c0 H0) as (n0 & N0). pose proof (nth_stop _ _ _ _ N N0 S) as L.
  destruct (Nat.eq_dec n n0) as [->|NE]; [rewrite (nth_fun _ _ _ N N0); lia|]. pose proof (ahead n0 c0 n c N N0 S R0 ltac:(lia)). lia.
Qed.

(* What [block_end] says of a cell of the block. *)
Lemma end_of c e ss : span c -> reaches code m c -> block_end code m targets b e ss ->
  (joins targets b c -> e = c /\ ss = [c]) /\
  (~ joins targets b c -> e <> c /\
    match decode code c with
    | Some (JUMP o) => ss = [o / 4]
    | Some (JCMP _ o) => ss = [c + 2; o / 4]
    | Some (SWITCH t) => ss = map (fun o => o / 4) (table_offsets code (t / 4))
    | Some RETN => ss = []
    | _ => True
    end).
Proof.
  intros SC RC BE. split.
  - intros J. assert (ST : stops c) by now left. destruct BE as [c0 S0 J0|c0 S0 J0 E|c0 S0 J0 E|c0 S0 J0 E E2|c0 S0 J0 E E2].
    + rewrite (one_stop c c0 SC S0 ST (or_introl J0)). split; reflexivity.
    + exfalso. apply J0. rewrite <- (one_stop c c0 SC S0 ST); [exact J|]. right. rewrite E. reflexivity.
    + exfalso. apply J0. rewrite <- (one_stop c c0 SC S0 ST); [exact J|]. right. rewrite E. reflexivity.
    + exfalso. apply J0. rewrite <- (one_stop c c0 SC S0 ST); [exact J|]. right. unfold is_control. rewrite E. reflexivity.
    + exfalso. apply J0. rewrite <- (one_stop c c0 SC S0 ST); [exact J|]. right. rewrite E. reflexivity.
  - intros NJ. assert (CTL : forall c0, span c0 -> is_control (cell_at code c0) = true -> c <= c0 /\ (is_control (cell_at code c) = true -> c = c0)).
    { intros c0 S0 E. split; [apply (ahead_le c c0 SC S0); [now right|exact RC]|]. intros I0. apply (one_stop c c0 SC S0); now right. }
    destruct BE as [c0 S0 J0|c0 S0 J0 E|c0 S0 J0 E|c0 S0 J0 E E2|c0 S0 J0 E E2].
    + assert (NS : is_control (cell_at code c) = false).
      { destruct (is_control (cell_at code c)) eqn:X; [|reflexivity]. exfalso. apply NJ. rewrite (one_stop c c0 SC S0); [exact J0|now right|now left]. }
      split; [intros ->; contradiction|]. pose proof (not_control_decode code c NS) as N. destruct (decode code c) as [[]|]; try contradiction; exact Logic.I.
    + destruct (CTL c0 S0) as [L U]; [rewrite E; reflexivity|]. split; [lia|]. destruct (is_control (cell_at code c)) eqn:X.
      * rewrite (U eq_refl) in *. rewrite (proj2 (decode_retn code c0) E). reflexivity.
      * pose proof (not_control_decode code c X) as N. destruct (decode code c) as [[]|]; try contradiction; exact Logic.I.
    + destruct (CTL c0 S0) as [L U]; [rewrite E; reflexivity|]. split; [lia|]. destruct (is_control (cell_at code c)) eqn:X.
      * rewrite (U eq_refl) in *. destruct (decode_of_jump code c0) as [(_ & D)|(cc & D)]; [rewrite E; reflexivity|rewrite D; reflexivity|].
        apply decode_jcmp in D. tauto.
      * pose proof (not_control_decode code c X) as N. destruct (decode code c) as [[]|]; try contradiction; exact Logic.I.
    + destruct (CTL c0 S0) as [L U]; [unfold is_control; rewrite E; reflexivity|]. split; [lia|]. destruct (is_control (cell_at code c)) eqn:X.
      * rewrite (U eq_refl) in *. destruct (decode_of_jump code c0 E) as [(D & _)|(cc & D)]; [contradiction|rewrite D; reflexivity].
      * pose proof (not_control_decode code c X) as N. destruct (decode code c) as [[]|]; try contradiction; exact Logic.I.
    + destruct (CTL c0 S0) as [L U]; [rewrite E; reflexivity|]. split; [lia|]. destruct (is_control (cell_at code c)) eqn:X.
      * rewrite (U eq_refl) in *. assert (D : decode code c0 = Some (SWITCH (cell_at code (c0 + 1)))) by (unfold decode; rewrite E; reflexivity).
        rewrite D. reflexivity.
      * pose proof (not_control_decode code c X) as N. destruct (decode code c) as [[]|]; try contradiction; exact Logic.I.
Qed.
End Span.

Lemma decode_operands code pc i : Forall is_i32 code -> decode code pc = Some i -> Forall is_i32 (operands i).
Proof.
  intros C H. pose proof (fun k => cell_at_i32 code k C) as R0. unfold decode in H. cbv zeta in H.
  destruct (cell_at code pc) as [|q|q]; try discriminate H.
  do 8 (try (destruct q as [q|q|]; try discriminate H)).
  all: match type of H with Some ?x = _ => assert (i = x) as -> by congruence end; clear H; cbn [operands].
  all: repeat (apply Forall_cons; [apply R0|]); apply Forall_nil.
Qed.

Lemma find_case_pick code v : forall n pos d, pick v (case_values code n pos) (map (fun o => o / 4) (case_offsets code n pos)) (d / 4) =
  match find_case code pos n v with Some o => o | None => d end / 4.
Proof.
  induction n as [|n IH]; intros pos d; [reflexivity|]. cbn [case_values case_offsets map pick find_case].
  destruct (cell_at code pos =? v); [reflexivity|apply IH].
Qed.
Lemma case_lengths code n : forall pos, length (case_values code n pos) = n /\ length (case_offsets code n pos) = n.
Proof. induction n as [|n IH]; intros pos; [split; reflexivity|]. cbn [case_values case_offsets length]. destruct (IH (pos + 2)) as [-> ->]. split; reflexivity. Qed.
Lemma case_values_i32 code n : Forall is_i32 code -> forall pos, Forall is_i32 (case_values code n pos).
Proof. intros C. induction n as [|n IH]; intros pos; constructor; [now apply cell_at_i32|apply IH]. Qed.

Lemma le2_holds base k k' s x : le2 k k' -> holds base (fst k') (snd k') s x -> holds base (fst k) (snd k) s x.
Proof. intros [A B] []. constructor; auto. Qed.

Section Graph.
Variables (code : list Z) (m : Z) (pr : pre) (g : graph) (an : analysis).
Hypothesis BO : blocks_ok code m pr g.
Hypothesis AN : analysed m (g_succ g) an.
Notation rpo := (an_rpo an).
Lemma in_rpo b : In b (m :: g_known g) -> In b rpo.
Proof. intros H. apply (as_all _ _ _ AN). exact (bo_reach _ _ _ _ BO b H). Qed.
Lemma find_end (l : list (Z * Z)) b e : NoDup (map fst l) -> In (b, e) l -> find (fun x => fst x =? b) l = Some (b, e).
Proof.
  induction l as [|(u, v) l IH]; intros N H; [destruct H|]. cbn [map fst] in N. inversion N as [|? ? NI N']; subst. cbn [find fst].
  destruct (Z.eqb_spec u b) as [->|NE].
  - destruct H as [H|H]; [now rewrite H|]. exfalso. apply NI. change b with (fst (b, e)). now apply in_map.
  - destruct H as [H|H]; [congruence|]. now apply IH.
Qed.
Lemma the_end b : In b (m :: g_known g) -> exists e, block_end_at g b = Some e /\ block_end code m (pr_targets pr) b e (g_succ g b).
Proof.
  intros H. destruct (bo_end _ _ _ _ BO b H) as (e & BE & I0). exists e. split; [|exact BE]. unfold block_end_at.
  now rewrite (find_end _ b e (bo_one_end _ _ _ _ BO) I0).
Qed.
Lemma succ_known b c : In c (g_succ g b) -> In c (g_known g) /\ first_of m c = c.
Proof.
  intros H. destruct (bo_edge _ _ _ _ BO b c H) as [_ H']. split; [exact H'|]. unfold first_of. destruct (Z.eqb_spec c m) as [->|]; [|reflexivity].
  pose proof (bo_nodup _ _ _ _ BO) as N. inversion N; subst. contradiction.
Qed.
End Graph.

Section Method.
Variables (base : Z) (env : rt) (fp : fpu) (natives : Z -> option native) (junk : gpr -> Z) (fe : fenv).
Hypothesis US : user_space base.
Hypothesis NAT : natives_ok natives.
Hypothesis FA : floats_agree fe fp.
Hypothesis FC : float_cells fe.
Variables (p : prog) (t : config -> bool) (m : Z) (mi : meth) (pr : pre) (g : graph) (an : analysis) (K : Z -> bool * bool).
Notation code := (p_code p).
Hypothesis NP : p_natives p = natives.
Hypothesis CO : code_ok code.
Hypothesis M0 : 0 <= m.
Hypothesis CK : counts_ok code m.
Hypothesis AC : accepted code m.
Hypothesis BO : blocks_ok code m pr g.
Hypothesis AN : analysed m (g_succ g) an.
Hypothesis RO : registers_ok code m K.
Hypothesis SU : supported env natives code mi m.
Hypothesis ST : slot_table_ok mi.
Notation rpo := (an_rpo an).
Hypothesis TK : forall b c T, In b (m :: g_known g) -> span code m (pr_targets pr) b c -> ~ joins (pr_targets pr) b c -> reaches code m c ->
  decode code c = Some (SWITCH T) -> uses_table (case_values code (Z.to_nat (cell_at code (T / 4 + 1))) (T / 4 + 3)) = true ->
  table_of code g rpo b = map Some (tl (g_succ g b)).
Notation MA := (matches base env code m mi pr g K).
Notation JS := (jstep base env fp natives junk code mi g rpo).
Notation JR := (jruns base env fp natives junk code mi g rpo).

Local Notation in_rpo := (in_rpo code m pr g an BO AN).
Local Notation the_end := (the_end code m pr g BO).
Local Notation succ_known := (succ_known code m pr g BO).

(* At the start of another block the machine moves into it. *)
Lemma settle c j : MA c j -> exists j', JR j j' /\ MA c j' /\ ~ joins (pr_targets pr) (j_block j') (j_cell j').
Proof.
  intros M. destruct M as [MC MK MS MR MM MN ME MH]. destruct j as [b pc x]. cbn [j_block j_cell j_x] in *. subst pc.
  set (pc := a_pc (c_cur c)) in *.
  destruct (in_dec Z.eq_dec pc (pr_targets pr)) as [IT|NT]; [|exists (mkJat b pc x); split; [constructor|split; [constructor; auto|intros [J _]; auto]]].
  destruct (Z.eq_dec pc b) as [EB|NB]; [exists (mkJat b pc x); split; [constructor|split; [constructor; auto|intros [_ J]; auto]]|].
  assert (J : joins (pr_targets pr) b pc) by (split; auto).
  destruct (the_end b MK) as (e & EE & BE). destruct (proj1 (end_of code m (pr_targets pr) b CO CK AC pc e _ MS MR BE) J) as [-> SS].
  assert (IS : In pc (g_succ g b)) by (rewrite SS; now left). destruct (succ_known b pc IS) as [KN FO].
  destruct (jump_goes base env fp natives junk rpo b (as_once _ _ _ AN) (in_rpo b MK) pc x (in_rpo pc (or_intror KN))) as (rec & RE & _).
  exists (mkJat pc pc x). split; [|split].
  - eapply jruns_step; [|constructor]. unfold jstep. cbn [j_block j_cell j_x]. rewrite EE, Z.eqb_refl, SS. exact RE.
  - constructor; cbn [j_block j_cell j_x]; auto; [now right|]. rewrite <- FO at 2. constructor.
  - intros [_ N]. now apply N.
Qed.

Lemma cond_ok c p0 a0 x kp ka s : holds base kp ka s x -> pri s = p0 -> alt s = a0 -> is_i32 p0 -> is_i32 a0 -> kp = true ->
  match c with Zero | NotZero => True | _ => ka = true end ->
  exists f, xexec base env fp natives junk (jtest c) x = XOk (setf (Some f) x) /\ cond (jcond c) f = eval_cmp c p0 a0.
Proof.
  intros HO EP EA P A KP KA. assert (RA : xr x RAX = u32 p0) by (rewrite <- EP; apply (ho_pri _ _ _ _ _ HO); exact KP).
  assert (ZT : zf (test_flags L (xr x RAX) (xr x RAX)) = (p0 =? 0)).
  { cbn [test_flags zf mask]. rewrite Z.land_diag, RA, u32_u32. destruct (Z.eqb_spec p0 0) as [->|N]; [reflexivity|]. apply Z.eqb_neq. intros H. apply N.
    rewrite <- (wrap32_of_u32 p0 P), H. reflexivity. }
  destruct c; cbn [jtest jcond]; try (eexists; split; [reflexivity|]; cbn [cond eval_cmp]; now rewrite ZT).
  all: assert (RD : xr x RDX = u32 a0) by (rewrite <- EA; apply (ho_alt _ _ _ _ _ HO); exact KA); eexists; (split; [reflexivity|]);
    apply eval_cond; [exact Logic.I| |]; apply cmp32; auto; rewrite ?RA, ?RD; apply u32_u32.
Qed.

Lemma enter_block c c' j x' o : MA c j -> In o (g_succ g (j_block j)) -> reaches code m o -> le2 (K o) (K (a_pc (c_cur c))) ->
  c_rt c' = c_rt c -> a_meth (c_cur c') = a_meth (c_cur c) -> a_pri (c_cur c') = a_pri (c_cur c) -> a_alt (c_cur c') = a_alt (c_cur c) ->
  a_pc (c_cur c') = o -> sameish (j_x j) x' -> MA c' (mkJat o o x').
Proof.
  intros [MC MK MS MR MM MN ME MH] IS RO0 LE E1 E2 E3 E4 E5 SA. destruct (succ_known _ o IS) as [KN FO].
  assert (ES : state_of c' = state_of c) by (unfold state_of; congruence).
  constructor; cbn [j_block j_cell j_x]; rewrite ?E5, ?ES, ?E1, ?E2; auto; [now right| |].
  - rewrite <- FO at 2. constructor.
  - apply (sameish_holds base _ _ _ (j_x j)); [exact SA|]. now apply (le2_holds base _ (K (a_pc (c_cur c)))).
Qed.

Lemma do_jump_all c chk o next b0 c' : do_jump p t c chk o next = Next b0 c' ->
  c_rt c' = c_rt c /\ a_meth (c_cur c') = a_meth (c_cur c) /\ a_pri (c_cur c') = a_pri (c_cur c) /\ a_alt (c_cur c') = a_alt (c_cur c) /\ a_pc (c_cur c') = o / 4.
Proof.
  unfold do_jump. intro H. cbv zeta in H. destruct (chk && (o <? next * 4) && t c); [discriminate|].
  destruct ((o <? 0) || negb (o mod 4 =? 0) || (ncells p * 4 <=? o)); [discriminate|].
  match type of H with Next _ ?k = _ => assert (c' = k) as -> by congruence end. repeat split.
Qed.

Lemma step_at c i : reaches code m (a_pc (c_cur c)) -> decode code (a_pc (c_cur c)) = Some i ->
  let a := c_cur c in let next := a_pc a + insn_size code (a_pc a) in
  forall b0 c', step false fe p t c = Next b0 c' ->
  match i with
  | RETN | CALL _ => True
  | JUMP o => do_jump p t c true o next = Next b0 c'
  | JCMP cm o => (if eval_cmp cm (a_pri a) (a_alt a) then do_jump p t c true o next
                  else Next false (mkConfig (c_rt c) (mkAct (a_meth a) next (a_pri a) (a_alt a)) (c_callers c))) = Next b0 c'
  | SWITCH tbl => 0 <= cell_at code (tbl / 4 + 1) /\ tbl / 4 + 3 + 2 * cell_at code (tbl / 4 + 1) <= ncells p /\ 0 <= tbl / 4 /\
      do_jump p t c false (match find_case code (tbl / 4 + 3) (Z.to_nat (cell_at code (tbl / 4 + 1))) (a_pri a) with
                                           Some o => o | None => cell_at code (tbl / 4 + 2) end) next = Next b0 c'
  | _ => exists s', exec false fe (p_natives p) (a_meth a) i (state_of c) = Ok tt s' /\ b0 = false /\
          c' = mkConfig (rts s') (mkAct (a_meth a) next (pri s') (alt s')) (c_callers c)
  end.
Proof.
  intros RC D a next b0 c' E. destruct (flow_ok code m CO _ AC RC) as ((_ & IN) & _). destruct IN as (I1 & I2 & I3 & _).
  unfold step in E. cbv zeta in E. rewrite D in E. fold a in E, D, I1, I2, I3. fold next in E.
  replace ((a_pc a <? 0) || (ncells p <? a_pc a)) with false in E by (unfold ncells; lia).
  replace (a_pc a =? ncells p) with false in E by (unfold ncells; lia).
  replace ((cell_at code (a_pc a) =? OP_PROC) || (cell_at code (a_pc a) =? OP_ENDPROC)) with false in E by lia.
  destruct (ncells p <? next); [discriminate|].
  destruct i; try exact E; try exact Logic.I.
  all: try (destruct (negb (slots_ok (a_meth a) _)); [discriminate|]; unfold state_of; fold a;
    match type of E with match ?r with _ => _ end = _ => destruct r as [u s'| |] end; try discriminate; destruct u;
    injection E as <- <-; eexists; repeat split; fail).
  destruct ((tbl / 4 <? 0) || (ncells p <? tbl / 4 + 3) || negb (cell_at code (tbl / 4) =? OP_CASETBL)) eqn:T1; [discriminate|].
  destruct ((cell_at code (tbl / 4 + 1) <? 0) || (ncells p <? tbl / 4 + 3 + 2 * cell_at code (tbl / 4 + 1))) eqn:T2; [discriminate|].
  split; [lia|]. split; [lia|]. split; [lia|exact E].
Qed.

Lemma run_step j b0 j' : JS j = JAt b0 j' -> JR j j'.
Proof. intros E. eapply jruns_step; [exact E|constructor]. Qed.
Lemma jruns_trans j j' j'' : JR j j' -> JR j' j'' -> JR j j''.
Proof. induction 1 as [|j b0 j1 j2 E _ IH]; intros H; [exact H|]. eapply jruns_step; [exact E|now apply IH]. Qed.

(* Every instruction but calls and returns. *)
Lemma jump_step c j b0 c' o : MA c j -> ~ joins (pr_targets pr) (j_block j) (j_cell j) -> decode code (a_pc (c_cur c)) = Some (JUMP o) ->
  step false fe p t c = Next b0 c' -> exists j', JR j j' /\ MA c' j'.
Proof.
  intros M NJ D E. pose proof M as [MC MK MS MR MM MN ME MH]. destruct (the_end _ MK) as (e & EE & BE).
  pose proof (step_at c _ MR D b0 c' E) as ES. cbv beta iota zeta in ES. destruct (do_jump_all _ _ _ _ _ _ ES) as (E1 & E2 & E3 & E4 & E5).
  destruct (proj2 (end_of code m (pr_targets pr) _ CO CK AC _ e _ MS (eq_ind_r (reaches code m) MR MC) BE) NJ) as [NE SS].
  assert (DJ : decode code (j_cell j) = Some (JUMP o)) by (rewrite MC; exact D). rewrite DJ in SS.
  assert (IS : In (o / 4) (g_succ g (j_block j))) by (rewrite SS; now left). destruct (succ_known _ _ IS) as [KN FO].
  destruct (jump_goes base env fp natives junk rpo (j_block j) (as_once _ _ _ AN) (in_rpo _ MK) (o / 4) (j_x j) (in_rpo _ (or_intror KN))) as (rec & RE & _).
  exists (mkJat (o / 4) (o / 4) (j_x j)). split.
  - apply (run_step j rec). unfold jstep. cbv zeta. rewrite EE. destruct (Z.eqb_spec (j_cell j) e) as [X|_]; [congruence|]. rewrite DJ, SS. exact RE.
  - apply (enter_block c c' j (j_x j) (o / 4) M IS); auto; [| |apply sameish_refl].
    + apply (reach_jump code m (a_pc (c_cur c))); [exact MR|]. unfold jumps_to. rewrite D. reflexivity.
    + pose proof (RO _ MR) as KP. unfold keeps in KP. cbv zeta in KP. rewrite D in KP. exact KP.
Qed.

Lemma jcmp_step c j b0 c' cm o : MA c j -> ~ joins (pr_targets pr) (j_block j) (j_cell j) -> decode code (a_pc (c_cur c)) = Some (JCMP cm o) ->
  step false fe p t c = Next b0 c' -> exists j', JR j j' /\ MA c' j'.
Proof.
  intros M NJ D E. pose proof M as [MC MK MS MR MM MN ME MH]. destruct (the_end _ MK) as (e & EE & BE).
  pose proof (step_at c _ MR D b0 c' E) as ES. cbv beta iota zeta in ES.
  pose proof (RO _ MR) as KP. unfold keeps in KP. cbv zeta in KP. rewrite D in KP. destruct KP as (K1 & K2 & K3 & K4).
  destruct (cond_ok cm (a_pri (c_cur c)) (a_alt (c_cur c)) (j_x j) _ _ _ MH eq_refl eq_refl (rn_pri _ MN) (rn_alt _ MN) K1 K2) as (f & XF & CF).
  destruct (proj2 (end_of code m (pr_targets pr) _ CO CK AC _ e _ MS (eq_ind_r (reaches code m) MR MC) BE) NJ) as [NE SS].
  assert (SZ : insn_size code (a_pc (c_cur c)) = 2) by (apply size_jump; apply (decode_jcmp _ _ _ _ D)).
  assert (DJ : decode code (j_cell j) = Some (JCMP cm o)) by (rewrite MC; exact D). rewrite DJ in SS.
  set (pc := a_pc (c_cur c)) in *. rewrite MC in SS, NE.
  assert (IF : In (pc + 2) (g_succ g (j_block j))) by (rewrite SS; now left).
  assert (IT : In (o / 4) (g_succ g (j_block j))) by (rewrite SS; right; now left).
  destruct (jcmp_goes base env fp natives junk rpo (j_block j) (as_once _ _ _ AN) (in_rpo _ MK) (pc + 2) (o / 4) cm (j_x j) f) as (rec & RE & _);
    [apply in_rpo; right; apply (succ_known _ _ IF)|apply in_rpo; right; apply (succ_known _ _ IT)|exact XF|].
  set (tg := if cond (jcond cm) f then o / 4 else pc + 2) in *.
  exists (mkJat tg tg (setf (Some f) (j_x j))). split.
  - apply (run_step j rec). unfold jstep. cbv zeta. rewrite EE. destruct (Z.eqb_spec (j_cell j) e) as [X|_]; [congruence|]. rewrite DJ, SS. exact RE.
  - assert (SA : sameish (j_x j) (setf (Some f) (j_x j))) by (repeat split). unfold tg. rewrite CF. rewrite SZ in *.
    destruct (eval_cmp cm (a_pri (c_cur c)) (a_alt (c_cur c))).
    + destruct (do_jump_all _ _ _ _ _ _ ES) as (E1 & E2 & E3 & E4 & E5). apply (enter_block c c' j _ (o / 4) M IT); auto.
      apply (reach_jump code m pc); [exact MR|]. unfold jumps_to. rewrite D. reflexivity.
    + injection ES as _ <-. apply (enter_block c _ j _ (pc + 2) M IF); auto. rewrite <- SZ. apply reach_fall; [exact MR|]. unfold falls_through. rewrite D. exact Logic.I.
Qed.

Lemma switch_step c j b0 c' tbl : MA c j -> ~ joins (pr_targets pr) (j_block j) (j_cell j) -> decode code (a_pc (c_cur c)) = Some (SWITCH tbl) ->
  step false fe p t c = Next b0 c' -> exists j', JR j j' /\ MA c' j'.
Proof.
  intros M NJ D E. pose proof M as [MC MK MS MR MM MN ME MH]. destruct (the_end _ MK) as (e & EE & BE).
  pose proof (step_at c _ MR D b0 c' E) as ES. cbv beta iota zeta in ES. destruct ES as (N0 & N1 & N2 & ES).
  pose proof (RO _ MR) as KP. unfold keeps in KP. cbv zeta in KP. rewrite D in KP. destruct KP as (K1 & K2).
  destruct (proj2 (end_of code m (pr_targets pr) _ CO CK AC _ e _ MS (eq_ind_r (reaches code m) MR MC) BE) NJ) as [NE SS].
  assert (DJ : decode code (j_cell j) = Some (SWITCH tbl)) by (rewrite MC; exact D). rewrite DJ in SS.
  set (pc := a_pc (c_cur c)) in *. set (T := tbl / 4) in *. set (n := Z.to_nat (cell_at code (T + 1))) in *.
  unfold table_offsets in SS. fold n in SS. cbn [map] in SS. set (d := cell_at code (T + 2)) in *.
  set (ts := map (fun o => o / 4) (case_offsets code n (T + 3))) in *. set (vs := case_values code n (T + 3)) in *.
  destruct (case_lengths code n (T + 3)) as [LV LO].
  assert (RX : xr (j_x j) RAX = u32 (a_pri (c_cur c))) by exact (ho_pri _ _ _ _ _ MH K1).
  destruct (switch_goes base env fp natives junk rpo (j_block j) (as_once _ _ _ AN) (in_rpo _ MK) (a_pri (c_cur c)) (d / 4) ts vs (table_of code g rpo (j_block j)) (j_x j)) as (x' & RE & SA).
  { exact (rn_pri _ MN). } { apply case_values_i32, CO. } { unfold ts, vs. rewrite map_length. congruence. }
  { unfold vs. rewrite LV. unfold n. pose proof (proj2 CO). unfold ncells in N1. rewrite Z2Nat.id by exact N0. lia. }
  { apply in_rpo. right. apply (succ_known (j_block j)). rewrite SS. now left. } { exact RX. }
  { intros UT. rewrite (TK (j_block j) (j_cell j) tbl MK MS NJ (eq_ind_r (reaches code m) MR MC) DJ UT), SS. reflexivity. }
  cbv zeta in RE. pose proof (find_case_pick code (a_pri (c_cur c)) n (T + 3) d) as FP. fold vs ts in FP. rewrite FP in RE.
  set (o := match find_case code (T + 3) n (a_pri (c_cur c)) with Some o => o | None => d end) in *.
  assert (IO : In o (table_offsets code T)).
  { unfold table_offsets, o. fold n d. destruct (find_case code (T + 3) n (a_pri (c_cur c))) as [o1|] eqn:FE; [right|now left].
    destruct (find_case_in code _ _ _ _ FE) as (i & L & ->). now apply in_case_offsets. }
  assert (IS : In (o / 4) (g_succ g (j_block j))) by (rewrite SS; apply (in_map (fun o => o / 4)) in IO; exact IO).
  destruct (do_jump_all _ _ _ _ _ _ ES) as (E1 & E2 & E3 & E4 & E5).
  exists (mkJat (o / 4) (o / 4) x'). split.
  - apply (run_step j false). unfold jstep. cbv zeta. rewrite EE. destruct (Z.eqb_spec (j_cell j) e) as [X|_]; [congruence|]. rewrite DJ, SS. exact RE.
  - apply (enter_block c c' j x' (o / 4) M IS); auto. apply (reach_jump code m pc); [exact MR|]. unfold jumps_to. rewrite D. fold T d.
    unfold o. destruct (find_case code (T + 3) n (a_pri (c_cur c))) as [o1|] eqn:FE; [right|now left].
    destruct (find_case_in code _ _ _ _ FE) as (i & L & ->). exists i. split; [unfold n in L; rewrite Z2Nat.id in L by exact N0; exact L|f_equal; lia].
Qed.

Lemma plain_step c j b0 c' i : MA c j -> ~ joins (pr_targets pr) (j_block j) (j_cell j) -> decode code (a_pc (c_cur c)) = Some i -> plain i ->
  agreeable base p c -> step false fe p t c = Next b0 c' -> exists j', JR j j' /\ MA c' j'.
Proof.
  intros M NJ D PL AG E. pose proof M as [MC MK MS MR MM MN ME MH]. destruct (the_end _ MK) as (e & EE & BE).
  pose proof (step_at c _ MR D b0 c' E) as ES. cbv beta iota zeta in ES.
  assert (X : exists s', exec false fe (p_natives p) (a_meth (c_cur c)) i (state_of c) = Ok tt s' /\ b0 = false /\
          c' = mkConfig (rts s') (mkAct (a_meth (c_cur c)) (a_pc (c_cur c) + insn_size code (a_pc (c_cur c))) (pri s') (alt s')) (c_callers c)).
  { destruct i; try contradiction; exact ES. }
  clear ES. destruct X as (s' & EX & -> & EC). rewrite NP, MM in EX.
  assert (AG' : agrees base (state_of c) i /\ operand_ok natives mi (state_of c) i).
  { unfold agreeable in AG. rewrite D, NP, MM in AG. destruct i; try contradiction; exact AG. }
  destruct AG' as [AG' OK].
  pose proof (RO _ MR) as KP. unfold keeps in KP. cbv zeta in KP. rewrite D in KP.
  assert (KP' : exists k, flow i (K (a_pc (c_cur c))) = Some k /\ le2 (K (a_pc (c_cur c) + insn_size code (a_pc (c_cur c)))) k).
  { destruct i; try contradiction; exact KP. }
  destruct KP' as (k & FL & LE). set (pc := a_pc (c_cur c)) in *.
  destruct (emit env natives mi i) as [cc|] eqn:EM; [|exfalso; exact (SU pc i MR D PL EM)].
  pose proof (decode_operands code pc i (proj1 CO) D) as OPS.
  rewrite (surjective_pairing (K pc)) in FL.
  destruct (one_step base env fp natives junk fe US NAT FA mi (state_of c) s' (j_x j) _ _ i cc k ST ME MN MH EM FL OPS AG' EX) as (x' & XR & HO').
  destruct (keeps_running natives fe NAT FC mi (state_of c) s' i MN OK OPS EX) as [RN SP].
  destruct (proj2 (end_of code m (pr_targets pr) _ CO CK AC _ e _ MS (eq_ind_r (reaches code m) MR MC) BE) NJ) as [NE _].
  exists (mkJat (j_block j) (pc + insn_size code pc) x'). split.
  - apply (run_step j false). unfold jstep. cbv zeta. rewrite EE. destruct (Z.eqb_spec (j_cell j) e) as [Y|_]; [congruence|]. rewrite MC. fold pc. rewrite D, EM, XR.
    destruct i; try contradiction; reflexivity.
  - assert (SO : state_of c' = s') by (rewrite EC; destruct s'; reflexivity).
    assert (PC : a_pc (c_cur c') = pc + insn_size code pc) by (rewrite EC; reflexivity).
    constructor; cbn [j_block j_cell j_x]; rewrite ?PC, ?SO; auto.
    + rewrite <- MC. apply span_next; [exact MS|exact NJ|]. destruct (is_control (cell_at code (j_cell j))) eqn:IC; [|reflexivity]. exfalso.
      rewrite MC in IC. apply is_control_cases in IC. destruct IC as [IC|[IC|IC]].
      * destruct (decode_of_jump code pc IC) as [(_ & Y)|(z & Y)]; rewrite D in Y; injection Y as ->; exact PL.
      * apply decode_retn in IC. fold pc in IC. rewrite D in IC. injection IC as ->. exact PL.
      * assert (Y : decode code pc = Some (SWITCH (cell_at code (pc + 1)))) by (unfold decode; unfold pc in IC |- *; rewrite IC; reflexivity).
        rewrite D in Y. injection Y as ->. exact PL.
    + apply reach_fall; [exact MR|]. unfold falls_through. rewrite D. destruct i; try contradiction; exact Logic.I.
    + rewrite EC. exact MM.
    + rewrite EC. cbn [c_rt]. exact (same_plugin_trans _ _ _ ME SP).
    + apply (le2_holds base _ k); [exact LE|exact HO'].
Qed.

Theorem jit_step c j b0 c' : MA c j -> agreeable base p c -> step false fe p t c = Next b0 c' -> exists j', JR j j' /\ MA c' j'.
Proof.
  intros M AG E. destruct (settle c j M) as (j1 & R1 & M1 & NJ).
  assert (H : exists j', JR j1 j' /\ MA c' j').
  { destruct (decode code (a_pc (c_cur c))) as [i|] eqn:D; [|unfold agreeable in AG; rewrite D in AG; contradiction].
    destruct i; try (eapply (plain_step c j1 b0 c' _ M1 NJ D); [exact Logic.I|exact AG|exact E]).
    - unfold agreeable in AG. rewrite D in AG. contradiction.
    - unfold agreeable in AG. rewrite D in AG. contradiction.
    - exact (jump_step c j1 b0 c' _ M1 NJ D E).
    - exact (jcmp_step c j1 b0 c' _ _ M1 NJ D E).
    - exact (switch_step c j1 b0 c' _ M1 NJ D E). }
  destruct H as (j' & R2 & M2). exists j'. split; [exact (jruns_trans _ _ _ R1 R2)|exact M2].
Qed.
Theorem jit_run c c' : within base fe p t c c' -> forall j, MA c j -> exists j', JR j j' /\ MA c' j'.
Proof.
  induction 1 as [c|c b0 c1 c2 AG E _ IH]; intros j M; [exists j; split; [constructor|exact M]|].
  destruct (jit_step c j b0 c1 M AG E) as (j1 & R1 & M1). destruct (IH j1 M1) as (j2 & R2 & M2). exists j2. split; [exact (jruns_trans _ _ _ R1 R2)|exact M2].
Qed.
End Method.
