(* Types the checker accepts although they do not fit, and cases meeting the
   hypotheses of the theorems. *)
From Coq Require Import ZArith List Bool Lia.
From Verif Require Import Tyc_Model Tyc_Spec Tyc_Proofs.
Import ListNotations.
Local Open Scope Z_scope.

Definition tint := TBuiltin BInt.
Definition tany := TBuiltin BAny.
Definition tchar := TBuiltin BChar.
Definition tfloat := TBuiltin BFloat.
Definition tvoid := TBuiltin BVoid.
Definition tlong := TBuiltin BInt64.

Lemma fits_size : forall a n b m, fits (TArr a n) (TArr b m) -> n <> 0 -> n = m.
Proof. intros a n b m H. inversion H; subst; [lia|discriminate]. Qed.
Lemma fits_inner : forall a n b m, fits (TArr a n) (TArr b m) -> fits a b.
Proof. intros a n b m H. inversion H; subst; [assumption|discriminate]. Qed.
Lemma fits_width : forall a b, fits a b -> is_array a = false -> width a = width b.
Proof. intros a b H N. inversion H; subst; [discriminate|assumption]. Qed.
Lemma fits_array : forall a b, fits a b -> is_array a = is_array b.
Proof. intros a b H. inversion H; subst; cbn [is_array]; congruence. Qed.

(* void f(any x) takes an array: the address becomes the value of x. *)
Lemma any_takes_arrays :
  coerce Argument tany (TArr tint 3) = Accept /\ rep_of tany = OneCell /\ rep_of (TArr tint 3) = Address.
Proof. repeat split. Qed.

(* void f(char s[10]) takes a char[5], and a slice of unknown size. *)
Lemma short_string :
  coerce Argument (TArr tchar 10) (TArr tchar 5) = Accept /\
  coerce Argument (TArr tchar 10) (TArr tchar 0) = Accept /\
  ~ fits (TArr tchar 10) (TArr tchar 5).
Proof.
  repeat split. intros H. apply fits_size in H; lia.
Qed.

(* any[10] and int64[10] stand for each other. *)
Lemma wide_elements :
  coerce Argument (TArr tlong 10) (TArr tany 10) = Accept /\
  coerce Argument (TArr tany 10) (TArr tlong 10) = Accept /\
  ~ fits (TArr tlong 10) (TArr tany 10).
Proof.
  repeat split. intros H. apply fits_inner, fits_width in H; [discriminate|reflexivity].
Qed.

(* void f(any[] x) takes an int[3][4]: its elements are the addresses of the
   rows. *)
Lemma any_takes_rows :
  coerce Argument (TArr tany 0) (TArr (TArr tint 4) 3) = Accept /\
  ~ fits (TArr tany 0) (TArr (TArr tint 4) 3).
Proof.
  split; [reflexivity|]. intros H. apply fits_inner, fits_array in H. discriminate.
Qed.

(* typedef T = function void (int x); a function int (char[] s, float& y) is
   accepted. *)
Lemma void_sig :
  let f := (tvoid, [tint], false) in
  let a := (tint, [TArr tchar 0; TRef tfloat], false) in
  coerce Argument (TFun 1 (Some [f])) (TFun 2 (Some [a])) = Accept /\ ~ agree f a.
Proof.
  cbn zeta. split; [reflexivity|]. intros (H & _). inversion H.
Qed.

(* A callback called with an int[] of any size may itself want an int[10]; one
   called with an any may want an int&. *)
Lemma sig_contravariant :
  check sig_flags Generic (TArr tint 0) (TArr tint 10) = Accept /\
  ~ fits (TArr tint 10) (TArr tint 0) /\
  check sig_flags Generic tany (TRef tint) = Accept /\ rep_of tany <> rep_of (TRef tint).
Proof.
  repeat split; try discriminate. intros H. apply fits_size in H; lia.
Qed.

(* A reference to a function type where a function type is wanted. *)
Lemma broken_case :
  let f := (tvoid, [tint], false) in
  coerce Assignment (TRef (TFun 1 (Some [f]))) (TFun 2 (Some [f])) = Broken.
Proof. reflexivity. Qed.

(* Cases meeting the hypotheses. *)
Definition handle := TMap 1 [] true.
Definition pack := TMap 2 [1] true.
Lemma value_case :
  coerce Argument handle pack = Accept /\ coerce Argument pack handle = Refuse /\
  coerce Argument tint (TEnum 5) = Accept /\ coerce Argument (TEnum 5) (TEnum 6) = Refuse /\
  coerce Argument tint tfloat = Refuse /\ coerce Argument tfloat tint = Accept /\
  coerce Return (TRef tint) (TRef tint) = Accept.
Proof. repeat split. Qed.

Lemma array_case :
  coerce Argument (TArr (TArr tint 4) 0) (TArr (TArr tint 4) 3) = Accept /\
  not_mixed (TArr (TArr tint 4) 0) (as_array (TArr (TArr tint 4) 3)) /\
  coerce Argument (TArr tany 0) (TStruct 9 7) = Accept /\
  not_mixed (TArr tany 0) (as_array (TStruct 9 7)) /\
  coerce Argument (TArr (TArr tchar 8) 2) (TArr (TArr tchar 6) 2) = Accept /\
  coerce Argument (TArr tint 4) (TArr tint 3) = Refuse.
Proof. unfold not_mixed. cbn. intuition discriminate. Qed.

Lemma function_case :
  let f := (tvoid, [tint; TArr tchar 0], false) in
  let a := (tvoid, [tint; TArr tchar 0], false) in
  let b := (tvoid, [tfloat; TArr tchar 0], false) in
  rev [a] = a :: [] /\ (1 <> 2) /\
  coerce Argument (TFun 1 (Some [b; f])) (TFun 2 (Some [a])) = Accept /\
  coerce Argument (TFun 1 (Some [b])) (TFun 2 (Some [a])) = Refuse.
Proof. cbn zeta. repeat split. discriminate. Qed.
