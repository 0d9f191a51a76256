(* C49: examples.  A line defines a name (or is ordinary text, numbered from 100); a condition asks whether a name is defined, and
   name 99 is a condition in error. *)
From Verif Require Import Base Pre_Model Pre_Spec.

Definition define (t : Z) (e : list Z) : list Z := if t <? 100 then t :: e else e.
Definition defined (c : Z) (e : list Z) : bool * bool := if c =? 99 then (false, true) else (existsb (Z.eqb c) e, false).

(* An include guard around a header:
     #if defined 1 / #endinput / #endif / #define 1 / text 101 *)
Definition header : list (item Z Z) := [IGroup 1 [IEnd] [] None; IText 1; IText 101].
(* #define 2
   #include header
   #if defined 3 / text 102 / #if error / #else / text 103 / #endif
   #elseif defined 2 / text 104 / #include header / #if defined 1 / text 105 / #else / text 106 / #endif
   #elseif error / text 107
   #else / text 108 / #endif
   text 109 *)
Definition program : list (item Z Z) :=
  [IText 2; IInclude header;
   IGroup 3 [IText 102; IGroup 99 [] [] (Some [IText 103])]
     [(2, [IText 104; IInclude header; IGroup 1 [IText 105] [] (Some [IText 106])]); (99, [IText 107])] (Some [IText 108]);
   IText 109].
Definition no_sections : list (line Z Z) := [LText 100].

Lemma program_meaning : meaning define defined program [] = mkSel [1; 2] [2; 1; 101; 104; 105; 109] [] Full.
Proof. vm_compute. reflexivity. Qed.
Lemma program_own : forallb own_sections (written program) = true.
Proof. vm_compute. reflexivity. Qed.

Definition two_elses : list (line Z Z) := [LIf 1; LText 101; LElseif 2; LElse; LText 102; LElse; LText 103; LElseif 2; LEndif].
Lemma two_elses_silent : run_main define defined two_elses [1] = Went (mkPst [] 0 false [1] [101] []) false.
Proof. vm_compute. reflexivity. Qed.

Definition open_header : list (line Z Z) := [LInclude [LText 101; LIf 1; LText 102]; LText 103].
Lemma open_header_silent : run_main define defined open_header [] = Went (mkPst [] 0 false [] [101; 103] []) false.
Proof. vm_compute. reflexivity. Qed.

Lemma footing_lost : run_main define defined [LIf 1; LInclude [LEndif]] [1] = Broken /\ run_main define defined [LIf 1; LInclude [LElse]; LEndif] [1] = Broken.
Proof. split; vm_compute; reflexivity. Qed.

Definition nested : list (line Z Z) := [LIf 1; LIf 2; LText 101; LElse; LText 102; LEndif; LElseif 3; LText 103; LEndif].
Lemma nested_plain : Forall plain nested /\ depth nested 0 = Some O.
Proof. split; [repeat constructor|reflexivity]. Qed.
