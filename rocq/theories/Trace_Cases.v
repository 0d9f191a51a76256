(* Runs that meet the theorems' hypotheses, and runs that are listed wrongly. *)
From Coq Require Import ZArith List Bool Lia.
From Verif Require Import Base Trace_Model Trace_Spec Trace_Words Trace_Walk Trace_Proofs.
Import ListNotations.
Local Open Scope Z_scope.

(* Two compiled functions of plugin 1. *)
Definition code0 : codebase := fun cx fn =>
  if cx =? 1 then
    if fn =? 100 then Some (Compiled 1000 100 [(10, 4); (20, 8); (30, 12)])
    else if fn =? 200 then Some (Compiled 2000 100 [(10, 12); (20, 16)])
    else None
  else None.

Definition mach0 : mach := Mach (fun _ => 0) 5000 6000 0 [].

(* Function 100 calls function 200, that a native, that an interpreted
   function of plugin 2, that function 100 again, which fails; the frames are
   listed at every turn. *)
Definition run0 : hrun :=
  HJit 1 100 [5; 6] 77 78 [1; 2; 3; 4; 5; 6]
    (JCall (Site 1010 104) 200
       (JNat (Site 2010 212) 3 [9; 9]
          (HTrace
             (HInt 2 300 300
                (IAt 308
                   (INat 4
                      (HTrace
                         (HJit 1 100 [] 79 80 [1; 2; 3; 4; 5; 6]
                            (JHelp (Site 1020 108) [] (HTrace HEnd) (JThrow (Site 1030 112)))
                            (HTrace HEnd)))
                      IRet))
                HEnd))
          JRet)
       (JHelp (Site 1030 112) [] (HTrace HEnd) JRet))
    HEnd.

Definition traces0 : list (list act) :=
  [ [ActNat 1 3; ActFun 1 200 212; ActFun 1 100 104];
    [ActNat 2 4; ActFun 2 300 308; ActNat 1 3; ActFun 1 200 212; ActFun 1 100 104];
    [ActFun 1 100 108; ActNat 2 4; ActFun 2 300 308; ActNat 1 3; ActFun 1 200 212;
     ActFun 1 100 104];
    [ActNat 2 4; ActFun 2 300 308; ActNat 1 3; ActFun 1 200 212; ActFun 1 100 104];
    [ActFun 1 100 112] ].

Ltac rec0 :=
  eexists; split; [reflexivity|];
  split; [split; [reflexivity | discriminate]|];
  split; [split; [discriminate | reflexivity]|];
  split; [cbn; auto|];
  split; [repeat (constructor; [cbn; intuition discriminate|]); constructor|];
  split; [discriminate | reflexivity].

Ltac nums := split; [discriminate | reflexivity].

Lemma run0_proper : hproper false code0 run0.
Proof.
  cbn [hproper jproper iproper run0].
  repeat match goal with
  | |- _ /\ _ => split
  | |- True => exact Logic.I
  | |- recorded _ _ _ _ => rec0
  | |- 0 <= _ => discriminate
  | |- _ < _ => reflexivity
  | |- 5 <= _ => discriminate
  | |- _ <> _ => discriminate
  end.
Qed.

Lemma run0_case : hproper false code0 run0 /\ hwords run0 < rsp mach0 /\ top mach0 = [] /\
  htraces [] run0 = traces0.
Proof.
  split; [exact run0_proper|]. split; [reflexivity|]. split; reflexivity.
Qed.

(* ---- arrays initialised through the helper ---- *)

(* Function 100 calls a native, which leaves [v] on the stack, and then
   function 200, which fails to initialise an array at 216. *)
Definition run1 (v : Z) : hrun :=
  HJit 1 100 [] 77 78 [1; 2; 3; 4; 5; 6]
    (JNat (Site 1010 104) 3 [v] HEnd
       (JCall (Site 1020 108) 200
          (JInit (Site 2020 216) [] (HTrace HEnd) (JThrow (Site 2020 216)))
          JRet))
    HEnd.

Lemma run1_proper : forall v, hproper true code0 (run1 v).
Proof.
  intros v. cbn [hproper jproper iproper run1].
  repeat match goal with
  | |- _ /\ _ => split
  | |- True => exact Logic.I
  | |- recorded _ _ _ _ => rec0
  | |- 0 <= _ => discriminate
  | |- _ < _ => reflexivity
  | |- 5 <= _ => discriminate
  | |- _ <> _ => discriminate
  end.
Qed.

Definition act_eqb (a b : act) : bool :=
  match a, b with
  | ActFun x y z, ActFun x' y' z' => (x =? x') && (y =? y') && (z =? z')
  | ActNat x y, ActNat x' y' => (x =? x') && (y =? y')
  | _, _ => false
  end.
Fixpoint acts_eqb (a b : list act) : bool :=
  match a, b with
  | [], [] => true
  | x :: a, y :: b => act_eqb x y && acts_eqb a b
  | _, _ => false
  end.

Definition outs (fuel : nat) (h : hrun) : option (list (got (list act))) :=
  match hgo fuel code0 h mach0 with
  | Some (_, os) =>
    Some (map (fun o => match o with Got s => Got (active s) | AssertFails => AssertFails
                        | OutOfFuel => OutOfFuel end) os)
  | None => None
  end.

Lemma map_shows : forall os l, Forall2 shows os l ->
  map (fun o : outcome => match o with Got s => Got (active s) | AssertFails => AssertFails
                | OutOfFuel => OutOfFuel end) os = map Got l.
Proof.
  intros os l F. induction F as [| o a os l (s & -> & A) F IH]; [reflexivity|].
  cbn [map]. rewrite A. f_equal. exact IH.
Qed.

Lemma outs_shows : forall fuel h m' os l, hgo fuel code0 h mach0 = Some (m', os) ->
  Forall2 shows os l -> outs fuel h = Some (map Got l).
Proof.
  intros fuel h m' os l G F. unfold outs. rewrite G. f_equal. apply map_shows. exact F.
Qed.

(* The position shown is that of another instruction; or, with a null left on
   the stack, an assertion fails. *)
Lemma run1_outs :
  outs 50 (run1 2010) = Some [Got [ActFun 1 200 212; ActFun 1 100 108]] /\
  outs 50 (run1 0) = Some [AssertFails] /\
  outs 50 (run1 999999) = Some [Got [ActFun 1 200 kInvalidCip; ActFun 1 100 108]].
Proof. vm_compute. auto. Qed.

Lemma run1_wrong : forall v fuel m' os, v = 2010 \/ v = 0 \/ v = 999999 ->
  hgo fuel code0 (run1 v) mach0 = Some (m', os) -> ~ Forall2 shows os (htraces [] (run1 v)).
Proof.
  intros v fuel m' os V G F. pose proof (outs_shows _ _ _ _ _ G F) as O.
  do 12 (destruct fuel as [| fuel];
    [destruct V as [-> | [-> | ->]]; vm_compute in O; discriminate O|]).
  destruct V as [-> | [-> | ->]]; vm_compute in O; discriminate O.
Qed.

Lemma init_arrays_wrong : exists code h m, top m = [] /\ hproper true code h /\
  hwords h < rsp m /\
  forall fuel m' os, hgo fuel code h m = Some (m', os) -> ~ Forall2 shows os (htraces [] h).
Proof.
  exists code0, (run1 2010), mach0. split; [reflexivity|]. split; [apply run1_proper|].
  split; [reflexivity|]. intros fuel m' os. apply run1_wrong. left. reflexivity.
Qed.

(* ---- numbers of natives ---- *)
Lemma native_number_wrong :
  let v := u64 (function_id (frame_word t_exit (encode_exit x_native (2 ^ 28)))) in
  u32 (exit_payload v) <> 2 ^ 28.
Proof. vm_compute. discriminate. Qed.

(* ---- entries of the table that name another instruction ---- *)
Definition z0 : sizes := Sizes 10 10 5 3.
(* At 4004 a call through a thunk, at 4012 an addition. *)
Definition ops0 : list eop := [EOp 4004 [EThunkCall 5; EErr 6]; EOp 4012 [ECode 3; EBack 2]].

Lemma ops0_sized : sized z0 7 ops0.
Proof.
  repeat (split; [reflexivity|]). intros o a [<- | [<- | []]]; cbn [e_acts In];
    intros [<- | [<- | []]]; reflexivity.
Qed.

Lemma ops0_table : emit_table z0 4000 7 ops0 =
  [ Entry 12 4004 4004 RCall; Entry 48 0 4000 RPrologue; Entry 53 4004 4004 RError;
    Entry 58 4012 0 RDebugger; Entry 63 4012 4004 RThunkFailed; Entry 68 4012 4012 RTimeout ].
Proof. vm_compute. reflexivity. Qed.

Lemma prologue_position : exists z start pro ops x, sized z pro ops /\
  In x (emit_table z start pro ops) /\ en_why x = RPrologue /\ en_owner x = start /\
  en_cip x = 0 /\ start <> 0.
Proof.
  exists z0, 4000, 7, ops0, (Entry 48 0 4000 RPrologue). split; [exact ops0_sized|].
  split; [rewrite ops0_table; cbn; auto|]. repeat (split; [reflexivity|]). discriminate.
Qed.

Lemma thunk_position : exists z start pro ops x, sized z pro ops /\
  In x (emit_table z start pro ops) /\ en_why x = RThunkFailed /\ en_cip x <> en_owner x.
Proof.
  exists z0, 4000, 7, ops0, (Entry 63 4012 4004 RThunkFailed). split; [exact ops0_sized|].
  split; [rewrite ops0_table; cbn; auto 10|]. split; [reflexivity | discriminate].
Qed.
