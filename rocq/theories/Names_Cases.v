(* A program to which the theorems about names apply, and programs that show
   where names are not treated alike. *)

From Coq Require Import ZArith List Bool Lia.
From Verif Require Import Names_Model Names_Spec Names_Rep Names_Proofs.
Import ListNotations.
Local Open Scope Z_scope.

Definition fwd : fattr := mkF true false false false true false.
Definition pub : fattr := mkF false false false false true true.
Definition plain : fattr := mkF false false false false false true.
Definition nat_ : fattr := mkF false true false false false false.

(* In one file, forward f() and int g; in the other
     public f(int x) { int g = g; { int x = g; } f(x); }                      *)
Definition two_files : list (nat * item) :=
  [(0%nat, TFun fwd 1 10 [] SSkip);
   (0%nat, TVar false 2 11 ENone);
   (1%nat, TFun pub 3 10 [mkA 4 12 ENone]
     (SSeq (SVar 5 11 (EUse 100 11))
     (SSeq (SBlock (SVar 6 12 (EUse 101 11)))
           (SExpr (ECall (EUse 102 10) (EUse 103 12))))))].

(* The inner g is initialised with the outer one, the inner x with the inner g;
   f is taken for its implementation; two declarations are warned of. *)
Lemma two_files_out : st_out (resolve_names 2 two_files) =
  [Bound 100 2 2; Shadow 5; Bound 101 5 5; Shadow 6; Bound 102 1 3; Bound 103 4 4].
Proof. vm_compute. reflexivity. Qed.

Lemma two_files_exist : files_exist 2 two_files.
Proof. intros x [<-|[<-|[<-|[]]]]; cbn; lia. Qed.
Lemma two_files_bodies : natives_bodiless two_files.
Proof. intros f x [E|[E|[E|[]]]]; injection E as <- <-; cbn; (exact Logic.I || congruence || reflexivity). Qed.
Lemma two_files_differ : places_differ (occurrences two_files).
Proof.
  unfold places_differ. vm_compute.
  repeat (constructor; [cbn; intros H; repeat (destruct H as [H|H]; [discriminate H|]); exact H|]).
  constructor.
Qed.
Lemma two_files_paired : functions_paired (occurrences two_files).
Proof.
  intros P R f a d D E HD V. apply declares_dD in HD. subst D.
  set (O := occurrences two_files) in E. vm_compute in O. subst O.
  destruct P as [|o1 P].
  { exfalso. destruct V as [q [x [_ [[] _]]]]. }
  destruct P as [|o2 P].
  { discriminate E. }
  destruct P as [|o3 P].
  - injection E as <- <- <- <- <- _. split.
    + intros q d' [_ [[I N] _]]. vm_compute in I. destruct I as [I|[I|[]]]; injection I as <- <-.
      * discriminate N.
      * exists fwd. split; [reflexivity|]. left. vm_compute. intuition reflexivity.
    + intros P1 P2 f1 a1 d1 D1 E1 NM HD1 [q [x [_ [I _]]]]. apply declares_dD in HD1. subst D1.
      destruct P1 as [|x1 P1]; [destruct I|].
      destruct P1 as [|x2 P1]; [discriminate E1|]. destruct P1; discriminate E1.
  - exfalso. do 9 (destruct P as [|? P]; [discriminate E|]). destruct P; discriminate E.
Qed.
Lemma two_files_named : well_named (occurrences two_files).
Proof. apply well_named_evs. vm_compute. reflexivity. Qed.

(* The theorems' hypotheses hold of it. *)
Lemma names_case : exists files p, files_exist files p /\ natives_bodiless p /\
  functions_paired (occurrences p) /\ places_differ (occurrences p) /\ well_named (occurrences p) /\
  st_out (resolve_names files p) =
    [Bound 100 2 2; Shadow 5; Bound 101 5 5; Shadow 6; Bound 102 1 3; Bound 103 4 4].
Proof.
  exists 2%nat, two_files.
  split; [exact two_files_exist|]. split; [exact two_files_bodies|].
  split; [exact two_files_paired|]. split; [exact two_files_differ|].
  split; [exact two_files_named|exact two_files_out].
Qed.

(* int n; f() { int n = n; }   and   int n; f() { const int n = n; } *)
Definition with_local (s : stmt) : list (nat * item) :=
  [(0%nat, TVar false 1 10 ENone); (0%nat, TFun plain 2 11 [] s)].
Lemma constant_means_itself :
  st_out (resolve_names 1 (with_local (SVar 3 10 (EUse 100 10)))) = [Bound 100 1 1; Shadow 3] /\
  st_out (resolve_names 1 (with_local (SConst 3 10 (EUse 100 10)))) = [Shadow 3; Bound 100 3 3].
Proof. split; vm_compute; reflexivity. Qed.

(* forward f(); public f() {} f() {}   against   forward f(); public f() {} public f() {} *)
Definition three (a b c : fattr) : list (nat * item) :=
  [(0%nat, TFun a 1 10 [] SSkip); (0%nat, TFun b 2 10 [] SSkip); (0%nat, TFun c 3 10 [] SSkip)].
Lemma third_implementation :
  st_out (resolve_names 1 (three fwd pub pub)) = [Redef 3] /\
  st_out (resolve_names 1 (three fwd pub plain)) = [NotPublic 3; Failed] /\
  st_out (resolve_names 1 (three pub fwd fwd)) = [Failed].
Proof. repeat split; vm_compute; reflexivity. Qed.

(* f() {} native f();   against   native f(); f() {} *)
Definition two (a b : fattr) : list (nat * item) :=
  [(0%nat, TFun a 1 10 [] SSkip); (0%nat, TFun b 2 10 [] SSkip)].
Lemma native_after_function :
  st_out (resolve_names 1 (two plain nat_)) = [] /\
  st_out (resolve_names 1 (two nat_ plain)) = [Redef 2].
Proof. split; vm_compute; reflexivity. Qed.

(* int g; static int g;   against   static int g; int g; *)
Lemma static_order :
  st_out (resolve_names 1 [(0%nat, TVar false 1 10 ENone); (0%nat, TVar true 2 10 ENone)]) =
    [Shadow 2] /\
  st_out (resolve_names 1 [(0%nat, TVar true 1 10 ENone); (0%nat, TVar false 2 10 ENone)]) =
    [Redef 2].
Proof. split; vm_compute; reflexivity. Qed.
