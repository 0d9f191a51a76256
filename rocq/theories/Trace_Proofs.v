(* Runs keep the frames in order. *)
From Coq Require Import ZArith List Bool Lia ZifyBool.
From Verif Require Import Base Trace_Model Trace_Spec Trace_Words Trace_Walk.
Import ListNotations.
Local Open Scope Z_scope.
Ltac Zify.zify_post_hook ::= idtac.

Ltac upds := unfold upd;
  repeat match goal with
  | |- context [?x =? ?y] => destruct (Z.eqb_spec x y); try lia
  end.

Lemma push_facts : forall v m, let m1 := push v m in
  rsp m1 = rsp m - 1 /\ rbp m1 = rbp m /\ exit_fp m1 = exit_fp m /\ top m1 = top m /\
  mem m1 (rsp m - 1) = v /\ forall a, rsp m <= a -> mem m1 a = mem m a.
Proof.
  intros v m m1. unfold m1, push. cbn [rsp rbp exit_fp top mem].
  do 4 (split; [reflexivity|]). split; [now upds|]. intros a A. now upds.
Qed.

Lemma push_all_facts : forall l m, let m1 := push_all l m in
  rsp m1 = rsp m - Z.of_nat (length l) /\ rbp m1 = rbp m /\ exit_fp m1 = exit_fp m /\
  top m1 = top m /\ forall a, rsp m <= a -> mem m1 a = mem m a.
Proof.
  induction l as [| v l IH]; intros m; cbn [push_all].
  - cbn [length]. split; [lia|]. do 3 (split; [reflexivity|]). intros; reflexivity.
  - destruct (push_facts v m) as (R & B & E & T & _ & M).
    destruct (IH (push v m)) as (R' & B' & E' & T' & M').
    split; [rewrite R', R; cbn [length]; lia|]. split; [congruence|]. split; [congruence|].
    split; [congruence|]. intros a A. rewrite M' by (rewrite R; lia). apply M. exact A.
Qed.

Lemma enterFrame_facts : forall ty id m, 0 <= ty < two31 -> let m1 := enterFrame ty id m in
  rsp m1 = rsp m - 2 /\ rbp m1 = rsp m - 1 /\ exit_fp m1 = exit_fp m /\ top m1 = top m /\
  mem m1 (rsp m - 1) = rbp m /\ mem m1 (rsp m - 2) = frame_word ty id /\
  forall a, rsp m <= a -> mem m1 a = mem m a.
Proof.
  intros ty id m TY m1. unfold m1, enterFrame, push, set_rbp. cbn [rsp rbp exit_fp top mem].
  split; [lia|]. do 3 (split; [reflexivity|]). split; [now upds|].
  split; [upds; apply frame_word_u32; exact TY|]. intros a A. now upds.
Qed.

Lemma prologue_facts : forall fn m, let m1 := prologue fn m in
  rsp m1 = rsp m - 3 /\ rbp m1 = rsp m - 1 /\ exit_fp m1 = exit_fp m /\ top m1 = top m /\
  mem m1 (rsp m - 1) = rbp m /\ mem m1 (rsp m - 2) = frame_word t_scripted fn /\
  forall a, rsp m <= a -> mem m1 a = mem m a.
Proof.
  intros fn m m1.
  destruct (enterFrame_facts t_scripted fn m) as (R & B & E & T & M1 & M2 & M);
    [split; [discriminate | reflexivity]|].
  unfold m1, prologue, drop, set_rsp. cbn [rsp rbp exit_fp top mem].
  split; [rewrite R; lia|]. do 5 (split; [assumption|]). exact M.
Qed.

Lemma enterExit_facts : forall ty p m, let m1 := enterExitFrame ty p m in
  rsp m1 = rsp m - 2 /\ rbp m1 = rsp m - 1 /\ exit_fp m1 = rsp m - 1 /\ top m1 = top m /\
  mem m1 (rsp m - 1) = rbp m /\ mem m1 (rsp m - 2) = frame_word t_exit (encode_exit ty p) /\
  forall a, rsp m <= a -> mem m1 a = mem m a.
Proof.
  intros ty p m m1.
  destruct (enterFrame_facts t_exit (encode_exit ty p) m) as (R & B & E & T & M1 & M2 & M);
    [split; [discriminate | reflexivity]|].
  unfold m1, enterExitFrame, set_exit. cbn [rsp rbp exit_fp top mem].
  do 6 (split; [assumption|]). exact M.
Qed.

Lemma pushInline_facts : forall ty p ret m, let m1 := pushInlineExitFrame ty p ret m in
  rsp m1 = rsp m - 3 /\ rbp m1 = rbp m /\ exit_fp m1 = rsp m - 2 /\ top m1 = top m /\
  mem m1 (rsp m - 1) = ret /\ mem m1 (rsp m - 2) = rbp m /\
  mem m1 (rsp m - 3) = frame_word t_exit (encode_exit ty p) /\
  forall a, rsp m <= a -> mem m1 a = mem m a.
Proof.
  intros ty p ret m m1. unfold m1, pushInlineExitFrame, push, set_exit.
  cbn [rsp rbp exit_fp top mem].
  split; [lia|]. split; [reflexivity|]. split; [lia|]. split; [reflexivity|].
  split; [now upds|]. split; [now upds|]. split; [now upds|].
  intros a A. now upds.
Qed.

Lemma leave_facts : forall m, let m1 := leaveFrame m in
  rsp m1 = rbp m + 1 /\ rbp m1 = mem m (rbp m) /\ exit_fp m1 = exit_fp m /\ top m1 = top m /\
  mem m1 = mem m.
Proof. intros m m1. unfold m1, leaveFrame, drop, set_rsp, set_rbp. cbn. auto. Qed.

Lemma stub_in_facts : forall ret ret' regs m, let m1 := stub_in ret ret' regs m in
  rsp m1 = rsp m - 4 - Z.of_nat (length regs) /\ rbp m1 = rsp m - 2 /\ top m1 = top m /\
  mem m1 (rsp m - 2) = rbp m /\ mem m1 (rsp m - 3) = frame_word t_entry 0 /\
  forall a, rsp m <= a -> mem m1 a = mem m a.
Proof.
  intros ret ret' regs m m1.
  destruct (push_facts ret m) as (R0 & B0 & E0 & T0 & _ & M0).
  destruct (enterFrame_facts t_entry 0 (push ret m)) as (R1 & B1 & E1 & T1 & P1 & W1 & M1);
    [split; [discriminate | reflexivity]|].
  destruct (push_all_facts regs (enterFrame t_entry 0 (push ret m))) as (R2 & B2 & E2 & T2 & M2).
  destruct (push_facts ret' (push_all regs (enterFrame t_entry 0 (push ret m))))
    as (R3 & B3 & E3 & T3 & _ & M3).
  unfold m1, stub_in.
  rewrite R0 in *. rewrite R1 in *. rewrite R2 in *.
  replace (rsp m - 1 - 1) with (rsp m - 2) in * by ring.
  replace (rsp m - 1 - 2) with (rsp m - 3) in * by ring.
  split; [rewrite R3; lia|]. split; [congruence|]. split; [congruence|].
  split; [rewrite M3, M2, P1 by lia; exact B0|].
  split; [rewrite M3, M2, W1 by lia; reflexivity|].
  intros a A. rewrite M3, M2, M1, M0 by lia. reflexivity.
Qed.

Lemma stub_out_facts : forall m, let m1 := stub_out m in
  rsp m1 = rbp m + 2 /\ rbp m1 = mem m (rbp m) /\ exit_fp m1 = exit_fp m /\ top m1 = top m /\
  mem m1 = mem m.
Proof.
  intros m m1. unfold m1, stub_out.
  destruct (leave_facts (drop kSavedRegs (set_rsp (rbp m - 1 - kSavedRegs) m)))
    as (R & B & E & T & M).
  set (x := leaveFrame _) in *. unfold drop, set_rsp in *. cbn [rsp rbp exit_fp top mem] in *.
  split; [rewrite R; lia|]. auto.
Qed.

Section RUN.
Variable code : codebase.

Definition hgood (h : hrun) : Prop := forall m acts,
  traced code (mem m) (rsp m) (top m) (exit_fp m) acts ->
  hproper false code h -> hwords h < rsp m ->
  exists n m' os, (forall f, (n <= f)%nat -> hgo f code h m = Some (m', os)) /\
    Forall2 shows os (htraces acts h) /\ intact m m'.

Definition jgood (b : jrun) : Prop := forall m cx fn chain e prev ivks rest,
  rsp m <= rbp m - 2 ->
  jchain code (mem m) (rsp m) cx (rbp m) fn chain e ->
  top m = IvJit cx prev :: ivks -> traced code (mem m) (rsp m) ivks prev rest ->
  jproper false code cx fn b -> jwords b < rsp m ->
  exists n r m' os, (forall f, (n <= f)%nat -> jgo f code b m = Some (r, m', os)) /\
    Forall2 shows os (fst (jtraces cx fn (chain ++ rest) b)) /\
    r = snd (jtraces cx fn (chain ++ rest) b) /\ top m' = top m /\
    (forall a, rsp m <= a -> mem m' a = mem m a) /\
    (if r then rsp m' = rbp m + 2 /\ rbp m' = mem m (rbp m) else rbp m' = e).

Definition igood (b : irun) : Prop := forall m cx fn cip ivks rest,
  top m = IvInt cx fn cip (-1) :: ivks -> traced code (mem m) (rsp m) ivks (exit_fp m) rest ->
  iproper false code b -> iwords b < rsp m ->
  exists n m' os cip', (forall f, (n <= f)%nat -> igo f code b m = Some (m', os)) /\
    Forall2 shows os (itraces cx fn cip rest b) /\
    top m' = IvInt cx fn cip' (-1) :: ivks /\
    rsp m' = rsp m /\ rbp m' = rbp m /\ exit_fp m' = exit_fp m /\
    forall a, rsp m <= a -> mem m' a = mem m a.

Lemma words_nonneg : (forall h, 0 <= hwords h) /\ (forall b, 0 <= jwords b) /\
  (forall b, 0 <= iwords b).
Proof.
  apply run_mut; intros; cbn [hwords jwords iwords]; lia.
Qed.

Lemma h_trace : forall k, hgood k -> hgood (HTrace k).
Proof.
  intros k IH m acts T P W. destruct (listing_shows code m _ _ T) as (n1 & s & L & A).
  destruct (IH m acts T P W) as (n2 & m' & os & G & F & I).
  exists (Nat.max n1 n2), m', (Got s :: os). split; [|split; [|exact I]].
  - intros f LE. cbn [hgo]. rewrite G by lia. rewrite L by lia. reflexivity.
  - cbn [htraces]. constructor; [|exact F]. exists s. split; [reflexivity | exact A].
Qed.

Lemma h_jit : forall cx fn ws ret ret' regs b k, jgood b -> hgood k ->
  hgood (HJit cx fn ws ret ret' regs b k).
Proof.
  intros cx fn ws ret ret' regs b k IB IK m acts T (FN & RG & PB & PK) W.
  cbn [hwords] in W. destruct words_nonneg as (HW & JW & _). specialize (HW k). specialize (JW b).
  destruct (push_all_facts ws (enter_jit cx m)) as (R1 & B1 & E1 & T1 & M1).
  destruct (stub_in_facts ret ret' regs (push_all ws (enter_jit cx m)))
    as (R2 & B2 & T2 & P2 & W2 & M2).
  destruct (prologue_facts fn (stub_in ret ret' regs (push_all ws (enter_jit cx m))))
    as (R3 & B3 & E3 & T3 & P3 & W3 & M3).
  set (ma := push_all ws (enter_jit cx m)) in *.
  set (mb := stub_in ret ret' regs ma) in *. set (mc := prologue fn mb) in *.
  cbn [enter_jit set_top rsp rbp exit_fp top mem] in R1, B1, E1, T1, M1.
  assert (C : jchain code (mem mc) (rsp mc) cx (rbp mc) fn [] (rsp ma - 2)).
  { apply jc_entry; try lia.
    - rewrite B3. replace (rsp mb - 1 - 1) with (rsp mb - 2) by ring. exact W3.
    - rewrite B3, P3. exact B2.
    - rewrite M3 by lia. replace (rsp ma - 2 - 1) with (rsp ma - 3) by ring. exact W2. }
  assert (MEM : forall a, rsp m <= a -> mem mc a = mem m a).
  { intros a A. rewrite M3, M2, M1 by lia. reflexivity. }
  assert (TT : traced code (mem mc) (rsp mc) (top m) (exit_fp m) acts).
  { apply (traced_ext code _ _ _ _ _ T); [lia | exact MEM]. }
  destruct (IB mc cx fn [] (rsp ma - 2) (exit_fp m) (top m) acts)
    as (n1 & r & m1 & os & G & F & RR & TP & MM & FIN); try assumption; try lia.
  { rewrite T3, T2, T1. reflexivity. }
  assert (RB : rbp m1 = rsp ma - 2).
  { destruct r; [destruct FIN as (_ & FIN); rewrite FIN, B3, P3; exact B2 | exact FIN]. }
  destruct (stub_out_facts m1) as (R4 & B4 & E4 & T4 & M4).
  set (md := leave_jit (drop (Z.of_nat (length ws)) (stub_out m1))).
  assert (TOP1 : top (drop (Z.of_nat (length ws)) (stub_out m1)) = IvJit cx (exit_fp m) :: top m).
  { cbn [drop set_rsp top]. rewrite T4, TP, T3, T2, T1. reflexivity. }
  assert (I : intact m md).
  { unfold md, leave_jit. rewrite TOP1. unfold intact.
    cbn [drop set_rsp set_top set_exit rsp rbp exit_fp top mem].
    split; [rewrite R4, RB, R1; ring|].
    split.
    { rewrite B4, RB, MM by lia. rewrite M3 by lia. rewrite P2. exact B1. }
    split; [reflexivity|]. split; [reflexivity|].
    intros a A. rewrite M4, MM by lia. apply MEM. exact A. }
  destruct I as (I1 & I2 & I3 & I4 & I5).
  destruct (IK md acts) as (n2 & m' & os' & G' & F' & I').
  { rewrite I1, I3, I4. apply (traced_ext code _ _ _ _ _ T); [lia | exact I5]. }
  { exact PK. } { rewrite I1. lia. }
  exists (Nat.max n1 n2), m', (os ++ os'). split; [|split].
  - intros f LE. cbn [hgo]. change (prologue fn _) with mc. rewrite G by lia.
    change (leave_jit _) with md. rewrite G' by lia. reflexivity.
  - cbn [htraces]. apply Forall2_app; [exact F | exact F'].
  - destruct I' as (J1 & J2 & J3 & J4 & J5). unfold intact.
    split; [congruence|]. split; [congruence|]. split; [congruence|]. split; [congruence|].
    intros a A. rewrite J5 by (rewrite I1; exact A). apply I5. exact A.
Qed.

Lemma h_int : forall cx fn cip b k, igood b -> hgood k -> hgood (HInt cx fn cip b k).
Proof.
  intros cx fn cip b k IB IK m acts T (PB & PK) W.
  cbn [hwords] in W. destruct words_nonneg as (HW & _ & IW). specialize (HW k). specialize (IW b).
  destruct (IB (enter_int cx fn cip m) cx fn cip (top m) acts)
    as (n1 & m1 & os & cip' & G & F & TP & R1 & B1 & E1 & M1); try assumption;
    [reflexivity | cbn [enter_int set_top rsp]; lia |].
  cbn [enter_int set_top rsp rbp exit_fp top mem] in R1, B1, E1, M1.
  assert (I : intact m (leave_int m1)).
  { unfold leave_int, intact. cbn [set_top rsp rbp exit_fp top mem]. rewrite TP. cbn [tl].
    do 4 (split; [assumption || reflexivity|]). exact M1. }
  destruct I as (I1 & I2 & I3 & I4 & I5).
  destruct (IK (leave_int m1) acts) as (n2 & m' & os' & G' & F' & I').
  { rewrite I1, I3, I4. apply (traced_ext code _ _ _ _ _ T); [lia | exact I5]. }
  { exact PK. } { rewrite I1. lia. }
  exists (Nat.max n1 n2), m', (os ++ os'). split; [|split].
  - intros f LE. cbn [hgo]. rewrite G by lia. rewrite G' by lia. reflexivity.
  - cbn [htraces]. apply Forall2_app; [exact F | exact F'].
  - destruct I' as (J1 & J2 & J3 & J4 & J5). unfold intact.
    split; [congruence|]. split; [congruence|]. split; [congruence|]. split; [congruence|].
    intros a A. rewrite J5 by (rewrite I1; exact A). apply I5. exact A.
Qed.

Lemma j_ret : jgood JRet.
Proof.
  intros m cx fn chain e prev ivks rest RS J TP T P W.
  destruct (leave_facts (drop 1 m)) as (R & B & E & T1 & M).
  exists 0%nat, true, (drop 1 (leaveFrame (drop 1 m))), []. split; [reflexivity|].
  split; [constructor|]. split; [reflexivity|].
  set (x := leaveFrame _) in *. cbn [drop set_rsp rsp rbp exit_fp top mem] in *.
  split; [exact T1|]. split; [intros a A; rewrite M; reflexivity|].
  split; [rewrite R; ring | exact B].
Qed.

Lemma j_throw : forall s, jgood (JThrow s).
Proof.
  intros s m cx fn chain e prev ivks rest RS J TP T P W. cbn [jproper jwords] in P, W.
  destruct (push_facts (s_pc s) m) as (R0 & B0 & E0 & T0 & V0 & M0).
  destruct (enterExit_facts x_helper 0 (push (s_pc s) m)) as (R & B & E & T1 & P1 & W1 & M).
  set (m1 := enterExitFrame x_helper 0 (push (s_pc s) m)) in *.
  rewrite R0 in *.
  assert (MEM : forall a, rsp m <= a -> mem m1 a = mem m a).
  { intros a A. rewrite M, M0 by lia. reflexivity. }
  assert (J1 : jchain code (mem m1) (rsp m1) cx (rbp m) fn chain e).
  { apply (jchain_ext code _ _ _ _ _ _ _ J); [lia | exact MEM]. }
  destruct (find_entry_ok code m1 _ _ _ _ _ _ (encode_exit x_helper 0) J1) as (n & FE).
  { rewrite E. replace (rsp m - 1 - 1 - 1) with (rsp m - 1 - 2) by ring. exact W1. }
  { rewrite E, P1. exact B0. }
  { rewrite E. replace (rsp m - 1 - 1 + 1) with (rsp m - 1) by ring.
    rewrite M by lia. rewrite V0. exact P. }
  destruct (leave_facts m1) as (R2 & B2 & E2 & T2 & M2).
  exists n, false, (set_rbp e (leaveFrame m1)), []. split.
  { intros f LE. cbn [jgo]. change (enterExitFrame _ _ _) with m1. rewrite FE by exact LE.
    reflexivity. }
  split; [constructor|]. split; [reflexivity|].
  cbn [set_rbp rsp rbp exit_fp top mem].
  split; [rewrite T2, T1; exact T0|]. split; [|reflexivity].
  intros a A. rewrite M2. apply MEM. exact A.
Qed.

(* After what a function did inside, it goes on. *)
Lemma j_after : forall k m m2 cx fn chain e prev ivks rest,
  jgood k ->
  rsp m <= rbp m - 2 -> jchain code (mem m) (rsp m) cx (rbp m) fn chain e ->
  top m = IvJit cx prev :: ivks -> traced code (mem m) (rsp m) ivks prev rest ->
  jproper false code cx fn k -> jwords k < rsp m ->
  rsp m2 = rsp m -> rbp m2 = rbp m -> top m2 = top m ->
  (forall a, rsp m <= a -> mem m2 a = mem m a) ->
  exists n r m' os, (forall f, (n <= f)%nat -> jgo f code k m2 = Some (r, m', os)) /\
    Forall2 shows os (fst (jtraces cx fn (chain ++ rest) k)) /\
    r = snd (jtraces cx fn (chain ++ rest) k) /\ top m' = top m /\
    (forall a, rsp m <= a -> mem m' a = mem m a) /\
    (if r then rsp m' = rbp m + 2 /\ rbp m' = mem m (rbp m) else rbp m' = e).
Proof.
  intros k m m2 cx fn chain e prev ivks rest IK RS J TP T P W R2 B2 T2 M2.
  destruct (IK m2 cx fn chain e prev ivks rest) as (n & r & m' & os & G & F & RR & TT & MM & FIN).
  { lia. }
  { rewrite B2. apply (jchain_ext code _ _ _ _ _ _ _ J); [lia | exact M2]. }
  { congruence. }
  { apply (traced_ext code _ _ _ _ _ T); [lia | exact M2]. }
  { exact P. } { lia. }
  exists n, r, m', os. split; [exact G|]. split; [exact F|]. split; [exact RR|].
  split; [congruence|]. split.
  - intros a A. rewrite MM by lia. apply M2. exact A.
  - destruct r; [|exact FIN]. rewrite B2, M2 in FIN by lia. exact FIN.
Qed.

Lemma j_call : forall s fn' c k, jgood c -> jgood k -> jgood (JCall s fn' c k).
Proof.
  intros s fn' c k IC IK m cx fn chain e prev ivks rest RS J TP T (RC & FN & PC & PK) W.
  cbn [jwords] in W. destruct words_nonneg as (_ & JW & _).
  pose proof (JW c) as JC. pose proof (JW k) as JK.
  destruct (jchain_bounds _ _ _ _ _ _ _ _ J) as (JB & _).
  destruct (push_facts (s_pc s) m) as (R0 & B0 & E0 & T0 & V0 & M0).
  destruct (prologue_facts fn' (push (s_pc s) m)) as (R & B & E & T1 & P1 & W1 & M).
  set (m1 := prologue fn' (push (s_pc s) m)) in *.
  rewrite R0 in *.
  assert (MEM : forall a, rsp m <= a -> mem m1 a = mem m a).
  { intros a A. rewrite M, M0 by lia. reflexivity. }
  assert (J1 : jchain code (mem m1) (rsp m1) cx (rbp m1) fn' (ActFun cx fn (s_cip s) :: chain) e).
  { apply (jc_call code (mem m1) (rsp m1) cx (rbp m1) fn' (rbp m) fn s chain e); try lia;
      try assumption; rewrite ?B.
    - replace (rsp m - 1 - 1 - 1) with (rsp m - 1 - 2) by ring. exact W1.
    - replace (rsp m - 1 - 1 + 1) with (rsp m - 1) by ring. rewrite M by lia. exact V0.
    - apply (jchain_ext code _ _ _ _ _ _ _ J); [lia | exact MEM]. }
  destruct (IC m1 cx fn' (ActFun cx fn (s_cip s) :: chain) e prev ivks rest)
    as (n1 & r & m2 & os & G & F & RR & TT & MM & FIN); try assumption; try lia; try congruence.
  { apply (traced_ext code _ _ _ _ _ T); [lia | exact MEM]. }
  cbn [app] in F, RR. cbn [jtraces].
  destruct r.
  - destruct FIN as (FR & FB).
    destruct (j_after k m m2 cx fn chain e prev ivks rest)
      as (n2 & r2 & m' & os' & G' & F' & RR' & TT' & MM' & FIN'); try assumption; try lia; try congruence.
    { intros a A. rewrite MM by lia. apply MEM. exact A. }
    rewrite <- RR. cbn [fst snd].
    exists (Nat.max n1 n2), r2, m', (os ++ os'). split.
    { intros f LE. cbn [jgo]. change (prologue _ _) with m1. rewrite G by lia.
      rewrite G' by lia. reflexivity. }
    split; [apply Forall2_app; assumption|]. split; [exact RR'|]. split; [exact TT'|].
    split; [exact MM' | exact FIN'].
  - rewrite <- RR. cbn [fst snd].
    exists n1, false, m2, os. split.
    { intros f LE. cbn [jgo]. change (prologue _ _) with m1. rewrite G by lia. reflexivity. }
    split; [exact F|]. split; [reflexivity|]. split; [congruence|]. split; [|exact FIN].
    intros a A. rewrite MM by lia. apply MEM. exact A.
Qed.

Lemma j_nat : forall s idx ws h k, hgood h -> jgood k -> jgood (JNat s idx ws h k).
Proof.
  intros s idx ws h k IH IK m cx fn chain e prev ivks rest RS J TP T (RC & IX & PH & PK) W.
  cbn [jwords] in W. destruct words_nonneg as (HW & JW & _).
  pose proof (HW h) as HH. pose proof (JW k) as JK.
  destruct (pushInline_facts x_native idx (s_pc s) m) as (R & B & E & T1 & V1 & P1 & W1 & M).
  destruct (push_all_facts ws (pushInlineExitFrame x_native idx (s_pc s) m))
    as (R2 & B2 & E2 & T2 & M2).
  set (m0 := pushInlineExitFrame x_native idx (s_pc s) m) in *. set (m1 := push_all ws m0) in *.
  assert (MEM : forall a, rsp m <= a -> mem m1 a = mem m a).
  { intros a A. rewrite M2, M by lia. reflexivity. }
  destruct (IH m1 (ActNat cx idx :: ActFun cx fn (s_cip s) :: chain ++ rest))
    as (n1 & m2 & os & G & F & I1 & I2 & I3 & I4 & I5).
  { rewrite T2, T1, TP, E2, E.
    apply (tr_jit code (mem m1) (rsp m1) ivks cx prev (rsp m - 2) x_native idx (rbp m) fn s chain
             e rest); try lia; try assumption.
    - unfold x_native. lia.
    - replace (rsp m - 2 - 1) with (rsp m - 3) by ring. rewrite M2 by lia. exact W1.
    - rewrite M2 by lia. exact P1.
    - replace (rsp m - 2 + 1) with (rsp m - 1) by ring. rewrite M2 by lia. exact V1.
    - apply (jchain_ext code _ _ _ _ _ _ _ J); [lia | exact MEM].
    - apply (traced_ext code _ _ _ _ _ T); [lia | exact MEM]. }
  { exact PH. } { lia. }
  destruct (j_after k m (drop 3 (drop (Z.of_nat (length ws)) m2)) cx fn chain e prev ivks rest)
    as (n2 & r2 & m' & os' & G' & F' & RR' & TT' & MM' & FIN'); try assumption; cbn [drop set_rsp rsp rbp top mem]; try lia; try congruence.
  { intros a A. rewrite I5 by lia. apply MEM. exact A. }
  exists (Nat.max n1 n2), r2, m', (os ++ os'). split.
  { intros f LE. cbn [jgo]. change (push_all _ _) with m1. rewrite G by lia.
    rewrite G' by lia. reflexivity. }
  cbn [jtraces fst snd].
  split; [apply Forall2_app; assumption|]. split; [exact RR'|]. split; [exact TT'|].
  split; [exact MM' | exact FIN'].
Qed.

Lemma j_help : forall s ws h k, hgood h -> jgood k -> jgood (JHelp s ws h k).
Proof.
  intros s ws h k IH IK m cx fn chain e prev ivks rest RS J TP T (RC & PH & PK) W.
  cbn [jwords] in W. destruct words_nonneg as (HW & JW & _).
  pose proof (HW h) as HH. pose proof (JW k) as JK.
  destruct (push_facts (s_pc s) m) as (R0 & B0 & E0 & T0 & V0 & M0).
  destruct (enterExit_facts x_helper 0 (push (s_pc s) m)) as (R & B & E & T1 & P1 & W1 & M).
  destruct (push_all_facts ws (enterExitFrame x_helper 0 (push (s_pc s) m)))
    as (R2 & B2 & E2 & T2 & M2).
  set (m0 := enterExitFrame x_helper 0 (push (s_pc s) m)) in *. set (m1 := push_all ws m0) in *.
  rewrite R0 in *.
  assert (MEM : forall a, rsp m <= a -> mem m1 a = mem m a).
  { intros a A. rewrite M2, M, M0 by lia. reflexivity. }
  destruct (IH m1 (ActFun cx fn (s_cip s) :: chain ++ rest))
    as (n1 & m2 & os & G & F & I1 & I2 & I3 & I4 & I5).
  { rewrite T2, T1, T0, TP, E2, E.
    apply (tr_jit code (mem m1) (rsp m1) ivks cx prev (rsp m - 1 - 1) x_helper 0 (rbp m) fn s chain
             e rest); try lia; try assumption.
    - unfold x_helper. lia.
    - replace (rsp m - 1 - 1 - 1) with (rsp m - 1 - 2) by ring. rewrite M2 by lia. exact W1.
    - rewrite M2 by lia. rewrite P1. exact B0.
    - replace (rsp m - 1 - 1 + 1) with (rsp m - 1) by ring. rewrite M2, M by lia. exact V0.
    - apply (jchain_ext code _ _ _ _ _ _ _ J); [lia | exact MEM].
    - apply (traced_ext code _ _ _ _ _ T); [lia | exact MEM]. }
  { exact PH. } { lia. }
  destruct (leave_facts (drop (Z.of_nat (length ws)) m2)) as (R3 & B3 & E3 & T3 & M3).
  set (m3 := leaveFrame (drop (Z.of_nat (length ws)) m2)) in *.
  cbn [drop set_rsp rsp rbp exit_fp top mem] in R3, B3, E3, T3, M3.
  destruct (j_after k m (drop 1 m3) cx fn chain e prev ivks rest)
    as (n2 & r2 & m' & os' & G' & F' & RR' & TT' & MM' & FIN'); try assumption; cbn [drop set_rsp rsp rbp top mem]; try lia; try congruence.
  { rewrite B3, I2, B2, B. rewrite I5 by lia. rewrite M2 by lia. rewrite P1. exact B0. }
  { intros a A. rewrite M3, I5 by lia. apply MEM. exact A. }
  exists (Nat.max n1 n2), r2, m', (os ++ os'). split.
  { intros f LE. cbn [jgo]. change (push_all _ _) with m1. rewrite G by lia.
    change (leaveFrame _) with m3. rewrite G' by lia. reflexivity. }
  cbn [jtraces fst snd].
  split; [apply Forall2_app; assumption|]. split; [exact RR'|]. split; [exact TT'|].
  split; [exact MM' | exact FIN'].
Qed.

Lemma j_init : forall s ws h k, hgood h -> jgood k -> jgood (JInit s ws h k).
Proof.
  intros s ws h k _ IK m cx fn chain e prev ivks rest RS J TP T (-> & PK) W.
  cbn [jwords hwords] in W. destruct words_nonneg as (_ & JW & _).
  pose proof (JW k) as JK.
  destruct (enterExit_facts x_helper 0 m) as (R & B & E & T1 & P1 & W1 & M).
  destruct (push_all_facts ws (enterExitFrame x_helper 0 m)) as (R2 & B2 & E2 & T2 & M2).
  set (m0 := enterExitFrame x_helper 0 m) in *. set (m1 := push_all ws m0) in *.
  assert (MEM : forall a, rsp m <= a -> mem m1 a = mem m a).
  { intros a A. rewrite M2, M by lia. reflexivity. }
  destruct (leave_facts (drop (Z.of_nat (length ws)) m1)) as (R3 & B3 & E3 & T3 & M3).
  set (m3 := leaveFrame (drop (Z.of_nat (length ws)) m1)) in *.
  cbn [drop set_rsp rsp rbp exit_fp top mem] in R3, B3, E3, T3, M3.
  destruct (j_after k m m3 cx fn chain e prev ivks rest)
    as (n2 & r2 & m' & os' & G' & F' & RR' & TT' & MM' & FIN'); try assumption; try lia; try congruence.
  { rewrite B3, B2, B, M2 by lia. exact P1. }
  exists n2, r2, m', os'. split.
  { intros f LE. cbn [jgo hgo]. change (push_all _ _) with m1. change (leaveFrame _) with m3.
    rewrite G' by lia. reflexivity. }
  cbn [jtraces htraces fst snd app].
  split; [exact F'|]. split; [exact RR'|]. split; [exact TT'|].
  split; [exact MM' | exact FIN'].
Qed.

Lemma i_after : forall k m m2 cx fn cip ivks rest, igood k ->
  top m2 = IvInt cx fn cip (-1) :: ivks -> traced code (mem m) (rsp m) ivks (exit_fp m) rest ->
  iproper false code k -> iwords k < rsp m ->
  rsp m2 = rsp m -> rbp m2 = rbp m -> exit_fp m2 = exit_fp m ->
  (forall a, rsp m <= a -> mem m2 a = mem m a) ->
  exists n m' os cip', (forall f, (n <= f)%nat -> igo f code k m2 = Some (m', os)) /\
    Forall2 shows os (itraces cx fn cip rest k) /\
    top m' = IvInt cx fn cip' (-1) :: ivks /\
    rsp m' = rsp m /\ rbp m' = rbp m /\ exit_fp m' = exit_fp m /\
    forall a, rsp m <= a -> mem m' a = mem m a.
Proof.
  intros k m m2 cx fn cip ivks rest IK TP T P W R B E M.
  destruct (IK m2 cx fn cip ivks rest) as (n & m' & os & c' & G & F & T' & R' & B' & E' & M').
  { exact TP. }
  { rewrite E, R. apply (traced_ext code _ _ _ _ _ T); [lia | exact M]. }
  { exact P. } { lia. }
  exists n, m', os, c'. split; [exact G|]. split; [exact F|]. split; [exact T'|].
  do 3 (split; [congruence|]). intros a A. rewrite M' by lia. apply M. exact A.
Qed.

Lemma i_host : forall h k, hgood h -> igood k -> igood (IHost h k).
Proof.
  intros h k IH IK m cx fn cip ivks rest TP T (PH & PK) W.
  cbn [iwords] in W. destruct words_nonneg as (HW & _ & IW).
  pose proof (HW h) as HH. pose proof (IW k) as JK.
  destruct (IH m (ActFun cx fn cip :: rest)) as (n1 & m1 & os & G & F & I1 & I2 & I3 & I4 & I5).
  { rewrite TP. apply (tr_int code _ _ ivks (exit_fp m) cx fn cip (-1) rest); [left; reflexivity|].
    exact T. }
  { exact PH. } { lia. }
  destruct (i_after k m m1 cx fn cip ivks rest)
    as (n2 & m' & os' & c' & G' & F' & REST); try assumption; try lia; try congruence.
  exists (Nat.max n1 n2), m', (os ++ os'), c'. split.
  { intros f LE. cbn [igo]. rewrite G by lia. rewrite G' by lia. reflexivity. }
  cbn [itraces]. split; [apply Forall2_app; assumption | exact REST].
Qed.

Lemma i_nat : forall idx h k, hgood h -> igood k -> igood (INat idx h k).
Proof.
  intros idx h k IH IK m cx fn cip ivks rest TP T (IX & PH & PK) W.
  cbn [iwords] in W. destruct words_nonneg as (HW & _ & IW).
  pose proof (HW h) as HH. pose proof (IW k) as JK.
  assert (S1 : set_native (wrap32 idx) m = set_top (IvInt cx fn cip idx :: ivks) m).
  { unfold set_native. rewrite TP, (wrap32_small _ IX). reflexivity. }
  destruct (IH (set_native (wrap32 idx) m) (ActNat cx idx :: ActFun cx fn cip :: rest))
    as (n1 & m1 & os & G & F & I1 & I2 & I3 & I4 & I5).
  { rewrite S1. cbn [set_top rsp exit_fp top mem].
    assert (X : ActNat cx idx :: ActFun cx fn cip :: rest =
                (if idx =? -1 then [] else [ActNat cx idx]) ++ ActFun cx fn cip :: rest).
    { destruct (Z.eqb_spec idx (-1)); [lia | reflexivity]. }
    rewrite X. apply tr_int; [right; exact IX | exact T]. }
  { exact PH. } { rewrite S1. cbn [set_top rsp]. lia. }
  rewrite S1 in I1, I2, I3, I4, I5. cbn [set_top rsp rbp exit_fp top mem] in I1, I2, I3, I4, I5.
  assert (S2 : set_native (-1) m1 = set_top (IvInt cx fn cip (-1) :: ivks) m1).
  { unfold set_native. rewrite I4. reflexivity. }
  destruct (i_after k m (set_native (-1) m1) cx fn cip ivks rest)
    as (n2 & m' & os' & c' & G' & F' & REST); try assumption; try lia; try congruence;
    try (rewrite S2; cbn [set_top rsp rbp exit_fp top mem]; assumption || reflexivity).
  exists (Nat.max n1 n2), m', (os ++ os'), c'. split.
  { intros f LE. cbn [igo]. rewrite G by lia. rewrite G' by lia. reflexivity. }
  cbn [itraces]. split; [apply Forall2_app; assumption | exact REST].
Qed.

Lemma i_call : forall fn' c b k, igood b -> igood k -> igood (ICall fn' c b k).
Proof.
  intros fn' c b k IB IK m cx fn cip ivks rest TP T (PB & PK) W.
  cbn [iwords] in W. destruct words_nonneg as (_ & _ & IW).
  pose proof (IW b) as HH. pose proof (IW k) as JK.
  destruct (IB (enter_int cx fn' c m) cx fn' c (top m) (ActFun cx fn cip :: rest))
    as (n1 & m1 & os & c1 & G & F & TP1 & R1 & B1 & E1 & M1).
  { reflexivity. }
  { cbn [enter_int set_top rsp exit_fp top mem]. rewrite TP.
    apply (tr_int code _ _ ivks (exit_fp m) cx fn cip (-1) rest); [left; reflexivity | exact T]. }
  { exact PB. } { cbn [enter_int set_top rsp]. lia. }
  cbn [enter_int set_top rsp rbp exit_fp top mem] in R1, B1, E1, M1.
  destruct (i_after k m (leave_int m1) cx fn cip ivks rest)
    as (n2 & m' & os' & c' & G' & F' & REST); try assumption; try lia; try congruence;
    unfold leave_int; cbn [set_top rsp rbp exit_fp top mem]; try assumption.
  { rewrite TP1. cbn [tl]. exact TP. }
  exists (Nat.max n1 n2), m', (os ++ os'), c'. split.
  { intros f LE. cbn [igo]. rewrite TP. cbn zeta. rewrite G by lia. rewrite G' by lia.
    reflexivity. }
  cbn [itraces]. split; [apply Forall2_app; assumption | exact REST].
Qed.

Theorem all_good : (forall h, hgood h) /\ (forall b, jgood b) /\ (forall b, igood b).
Proof.
  apply run_mut.
  - intros m acts T P W. exists 0%nat, m, []. split; [reflexivity|]. split; [constructor|].
    unfold intact. do 4 (split; [reflexivity|]). intros; reflexivity.
  - exact h_trace.
  - intros; apply h_jit; assumption.
  - intros; apply h_int; assumption.
  - exact j_ret.
  - exact j_throw.
  - intros; apply j_call; assumption.
  - intros; apply j_nat; assumption.
  - intros; apply j_help; assumption.
  - intros; apply j_init; assumption.
  - intros m cx fn cip ivks rest TP T P W. exists 0%nat, m, [], cip. split; [reflexivity|].
    split; [constructor|]. split; [exact TP|]. do 3 (split; [reflexivity|]). intros; reflexivity.
  - intros c k IK m cx fn cip ivks rest TP T P W.
    assert (S1 : set_cip c m = set_top (IvInt cx fn c (-1) :: ivks) m).
    { unfold set_cip. rewrite TP. reflexivity. }
    destruct (i_after k m (set_cip c m) cx fn c ivks rest)
      as (n2 & m' & os' & c' & G' & F' & REST); try assumption; try lia; try congruence;
      try (rewrite S1; cbn [set_top rsp rbp exit_fp top mem]; reflexivity).
    exists n2, m', os', c'. split; [exact G'|]. split; [exact F' | exact REST].
  - intros; apply i_host; assumption.
  - intros; apply i_nat; assumption.
  - intros; apply i_call; assumption.
Qed.

Theorem run_listings : forall h m, top m = [] -> hproper false code h -> hwords h < rsp m ->
  exists n, forall fuel, (n <= fuel)%nat -> exists m' os,
    hgo fuel code h m = Some (m', os) /\ Forall2 shows os (htraces [] h) /\ intact m m'.
Proof.
  intros h m T P W. destruct all_good as (H & _).
  destruct (H h m []) as (n & m' & os & G & F & I).
  { rewrite T. apply tr_none. } { exact P. } { exact W. }
  exists n. intros fuel LE. exists m', os. split; [apply G; exact LE|]. split; assumption.
Qed.
End RUN.

(* ---- the table ---- *)

Definition em_ok (e : emitter) : Prop :=
  ascending (rev (map en_pc (em_map e))) /\ (forall y, In y (map en_pc (em_map e)) -> y <= em_pc e).

Lemma ascending_app1 : forall l x, ascending l -> (forall y, In y l -> y < x) ->
  ascending (l ++ [x]).
Proof.
  induction l as [| a l IH]; intros x A B; cbn [app ascending].
  - split; [intros y []|exact Logic.I].
  - destruct A as (A1 & A2). split.
    + intros y Y. apply in_app_or in Y. destruct Y as [Y | [<- | []]]; [apply A1; exact Y|].
      apply B. left. reflexivity.
    + apply IH; [exact A2|]. intros y Y. apply B. right. exact Y.
Qed.

Lemma em_site : forall n c o w e, 0 < n -> em_ok e -> em_ok (em_entry c o w (em_code n e)).
Proof.
  intros n c o w e N (A & B). unfold em_ok. cbn [em_entry em_code em_map em_pc map rev en_pc].
  split.
  - apply ascending_app1; [exact A|]. intros y Y. rewrite <- in_rev in Y. specialize (B y Y). lia.
  - intros y [<- | Y]; [lia|]. specialize (B y Y). lia.
Qed.

Lemma em_code_ok : forall n e, 0 < n -> em_ok e -> em_ok (em_code n e).
Proof.
  intros n e N (A & B). split; [exact A|]. intros y Y. cbn [em_code em_pc em_map] in *.
  specialize (B y Y). lia.
Qed.

Lemma fold_ok : forall (A : Type) (f : emitter -> A -> emitter) l e,
  (forall x e, In x l -> em_ok e -> em_ok (f e x)) -> em_ok e -> em_ok (fold_left f l e).
Proof.
  intros A f l. induction l as [| x l IH]; intros e H E; [exact E|]. cbn [fold_left].
  apply IH; [intros; apply H; [right|]; assumption|]. apply H; [left; reflexivity | exact E].
Qed.

Lemma em_act_ok : forall a e, 0 < act_size a -> em_ok e -> em_ok (em_act e a).
Proof.
  intros a e P E. destruct a as [n | n | n | n | n | n]; cbn [act_size] in P; cbn [em_act].
  - apply em_code_ok; assumption.
  - apply em_site; assumption.
  - exact (em_site n (em_op e) (em_op e) RCall e P E).
  - exact (em_code_ok n e P E).
  - exact (em_code_ok n e P E).
  - exact (em_code_ok n e P E).
Qed.

Theorem table_ascending : forall z start pro ops, sized z pro ops ->
  ascending (map en_pc (emit_table z start pro ops)).
Proof.
  intros z start pro ops (D & T & C & R & P & O). unfold emit_table.
  set (e0 := em_err start RPrologue _).
  assert (E0 : em_ok e0) by (split; [exact Logic.I | intros y []]).
  set (e1 := fold_left em_op1 ops e0).
  assert (E1 : em_ok e1).
  { apply fold_ok; [|exact E0]. intros o e I E. unfold em_op1. apply fold_ok; [|exact E].
    intros a e' IA E'. apply em_act_ok; [|exact E']. apply (O o a I IA). }
  set (e2 := em_err 0 RDebugger (em_code (z_debug z) e1)).
  assert (E2 : em_ok e2) by exact (em_code_ok _ e1 D E1).
  set (e3 := fold_left (em_thunk z) (em_thunks e2) e2).
  assert (E3 : em_ok e3).
  { apply fold_ok; [|exact E2]. intros o e _ E. exact (em_code_ok _ e T E). }
  set (e4 := fold_left (em_bound z) (em_bounds e3) e3).
  assert (E4 : em_ok e4).
  { apply fold_ok; [|exact E3]. intros o e _ E. unfold em_bound. apply em_code_ok; [exact R|].
    apply em_site; assumption. }
  set (e5 := fold_left (em_errthunk z) (em_errs e4) e4).
  assert (E5 : em_ok e5).
  { apply fold_ok; [|exact E4]. intros o e _ E. apply em_site; assumption. }
  set (e6 := fold_left (em_timeout z) (em_backs e5) e5).
  assert (E6 : em_ok e6).
  { apply fold_ok; [|exact E5]. intros o e _ E. apply em_site; assumption. }
  rewrite map_rev. exact (proj1 E6).
Qed.

(* Which instruction an entry names. *)
Definition em_own (e : emitter) : Prop :=
  (forall x, In x (em_map e) -> direct (en_why x) = true -> en_cip x = en_owner x) /\
  (forall p, In p (em_errs e) -> direct (p_why p) = true -> p_cip p = p_owner p).

Lemma fold_own : forall (A : Type) (f : emitter -> A -> emitter) l e,
  (forall x e, In x l -> em_own e -> em_own (f e x)) -> em_own e -> em_own (fold_left f l e).
Proof.
  intros A f l. induction l as [| x l IH]; intros e H E; [exact E|]. cbn [fold_left].
  apply IH; [intros; apply H; [right|]; assumption|]. apply H; [left; reflexivity | exact E].
Qed.

Lemma own_entry : forall c o w n e, (direct w = true -> c = o) -> em_own e ->
  em_own (em_entry c o w (em_code n e)).
Proof.
  intros c o w n e H (A & B). split; [|exact B]. intros x [<- | I] D; [exact (H D)|].
  apply A; assumption.
Qed.

Lemma own_err : forall o w n e, (direct w = true -> em_op e = o) -> em_own e ->
  em_own (em_err o w (em_code n e)).
Proof.
  intros o w n e H (A & B). split; [exact A|]. intros p I D.
  cbn [em_err em_errs em_code] in I. apply in_app_or in I.
  destruct I as [I | [<- | []]]; [apply B; assumption | exact (H D)].
Qed.

Theorem table_direct : forall z start pro ops x, In x (emit_table z start pro ops) ->
  direct (en_why x) = true -> en_cip x = en_owner x.
Proof.
  intros z start pro ops. unfold emit_table.
  set (e0 := em_err start RPrologue _).
  assert (E0 : em_own e0).
  { split; [intros x []|]. intros p [<- | []] D. discriminate D. }
  set (e1 := fold_left em_op1 ops e0).
  assert (E1 : em_own e1).
  { apply fold_own; [|exact E0]. intros o e I E. unfold em_op1. apply fold_own; [|exact E].
    intros a e' IA E'. destruct a as [n | n | n | n | n | n]; cbn [em_act]; try exact E'.
    - apply own_entry; [reflexivity | exact E'].
    - exact (own_entry (em_op e') (em_op e') RCall n e' (fun _ => eq_refl) E').
    - apply own_err; [reflexivity | exact E']. }
  set (e2 := em_err 0 RDebugger (em_code (z_debug z) e1)).
  assert (E2 : em_own e2) by (apply own_err; [discriminate | exact E1]).
  set (e3 := fold_left (em_thunk z) (em_thunks e2) e2).
  assert (E3 : em_own e3).
  { apply fold_own; [|exact E2]. intros o e _ E. apply own_err; [discriminate | exact E]. }
  set (e4 := fold_left (em_bound z) (em_bounds e3) e3).
  assert (E4 : em_own e4).
  { apply fold_own; [|exact E3]. intros o e _ E. unfold em_bound.
    exact (own_entry o o RBounds (z_call z) e (fun _ => eq_refl) E). }
  set (e5 := fold_left (em_errthunk z) (em_errs e4) e4).
  assert (E5 : em_own e5).
  { apply fold_own; [|exact E4]. intros p e IP E. apply own_entry; [|exact E].
    intros D. exact (proj2 E4 p IP D). }
  set (e6 := fold_left (em_timeout z) (em_backs e5) e5).
  assert (E6 : em_own e6).
  { apply fold_own; [|exact E5]. intros o e _ E. apply own_entry; [reflexivity | exact E]. }
  intros x I D. apply in_rev in I. exact (proj1 E6 x I D).
Qed.

Lemma ascending_nodup : forall l, ascending l -> NoDup l.
Proof.
  induction l as [| x l IH]; intros A; [constructor|]. destruct A as (A & B). constructor.
  - intros I. specialize (A x I). lia.
  - apply IH. exact B.
Qed.

(* What the table is for. *)
Theorem table_recorded : forall code cx fn c z start pro ops x, sized z pro ops ->
  code cx fn = Some c -> c_map c = cip_map z start pro ops ->
  0 < c_entry c -> c_size c < two32 ->
  In x (emit_table z start pro ops) -> direct (en_why x) = true ->
  0 <= en_pc x <= c_size c -> start <= en_owner x < start + two32 ->
  0 <= fn + (en_owner x - start) < two32 ->
  recorded code cx fn (Site (c_entry c + en_pc x) (fn + (en_owner x - start))).
Proof.
  intros code cx fn c z start pro ops x SZ C M E S I D P O F.
  pose proof (table_direct _ _ _ _ _ I D) as OW.
  exists c. cbn [s_pc s_cip]. split; [exact C|]. split; [lia|]. split; [lia|].
  split; [|split; [|exact F]].
  - rewrite M. unfold cip_map. apply in_map_iff. exists x. split; [|exact I].
    rewrite OW, u32_small by lia. f_equal; ring.
  - rewrite M. unfold cip_map. rewrite map_map. cbn [fst].
    apply ascending_nodup. apply (table_ascending z start pro ops SZ).
Qed.
