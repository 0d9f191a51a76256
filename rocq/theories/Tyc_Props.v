(* C51: a value is accepted only where its type serves. *)
From Coq Require Import ZArith List Bool.
From Verif Require Import Tyc_Model Tyc_Spec Tyc_Proofs Tyc_Cases.
Import ListNotations.
Local Open Scope Z_scope.

(* A value is accepted for a variable, an argument or a result that is no
   array and no function exactly if the language has a conversion. *)
Theorem C51_values_converted : forall why f a,
  is_array f = false -> is_array (unref f) = false -> is_fun (unref f) = false ->
  (coerce why f a = Accept <-> converts (unref f) (unref a)).
Proof. exact coerce_converts. Qed.
Print Assumptions C51_values_converted.

(* What is accepted is handed over as the receiver expects it, except where
   the receiver wants any. *)
Theorem C51_values_same_form_partial : forall why f a,
  is_array f = false -> is_array (unref f) = false -> unref f <> TBuiltin BAny ->
  coerce why f a = Accept -> rep_of (unref f) = rep_of (unref a).
Proof. exact coerce_rep. Qed.
Print Assumptions C51_values_same_form_partial.

(* An accepted array has the layout promised.  Missing: arrays of characters,
   which the next theorem is about, and the mixtures of any with 64-bit
   numbers and rows, which are refuted below. *)
Theorem C51_arrays_fit_partial : forall why fi fn a,
  coerce why (TArr fi fn) a = Accept ->
  not_mixed (TArr fi fn) (as_array a) -> elt fi <> TBuiltin BChar ->
  fits (TArr fi fn) (as_array a).
Proof. exact coerce_arrays_fit. Qed.
Print Assumptions C51_arrays_fit_partial.

Theorem C51_strings_fit_partial : forall why fi fn a,
  coerce why (TArr fi fn) a = Accept -> elt fi = TBuiltin BChar ->
  fits_string (TArr fi fn) a.
Proof. exact coerce_arrays_fit_string. Qed.
Print Assumptions C51_strings_fit_partial.

Theorem C51_dimensions : forall why fi fn a,
  coerce why (TArr fi fn) a = Accept -> elt fi <> TBuiltin BAny ->
  dims (TArr fi fn) = dims a.
Proof. exact coerce_dims. Qed.
Print Assumptions C51_dimensions.

(* A function is accepted for a function type exactly if its signature agrees
   with one of those listed, or one listed gives no result and it gives an
   int. *)
Theorem C51_functions_agree : forall why n l m asigs afn rest,
  rev asigs = afn :: rest -> n <> m ->
  (coerce why (TFun n (Some l)) (TFun m (Some asigs)) = Accept <->
   exists f, In f l /\ (agree f afn \/ void_for_int f afn)).
Proof. exact coerce_function. Qed.
Print Assumptions C51_functions_agree.

(* The arguments of agreeing signatures are handed over alike. *)
Theorem C51_signature_arguments_partial : forall f a,
  check sig_flags Generic f a = Accept -> f <> TBuiltin BAny -> rep_of f = rep_of a.
Proof. exact sig_rep. Qed.
Print Assumptions C51_signature_arguments_partial.

Theorem C51_signature_arrays_partial : forall fi fn a,
  check sig_flags Generic (TArr fi fn) a = Accept -> not_mixed (TArr fi fn) a ->
  (elt fi <> TBuiltin BChar -> fits (TArr fi fn) a) /\
  (elt fi = TBuiltin BChar -> fits_string (TArr fi fn) a).
Proof. exact sig_fit. Qed.
Print Assumptions C51_signature_arrays_partial.

(* Every type serves as itself. *)
Theorem C51_itself : forall why t, coerce why t t = Accept.
Proof. exact coerce_self. Qed.
Print Assumptions C51_itself.

(* The checker fails its assertion for references to function types only. *)
Theorem C51_no_breakdown_partial : forall why f a,
  coerce why f a = Broken -> exists n s, f = TRef (TFun n s).
Proof. exact coerce_broken. Qed.
Print Assumptions C51_no_breakdown_partial.

Theorem C51_any_takes_arrays_refuted :
  coerce Argument tany (TArr tint 3) = Accept /\ rep_of tany = OneCell /\ rep_of (TArr tint 3) = Address.
Proof. exact any_takes_arrays. Qed.
Print Assumptions C51_any_takes_arrays_refuted.

Theorem C51_short_string_refuted :
  coerce Argument (TArr tchar 10) (TArr tchar 5) = Accept /\
  coerce Argument (TArr tchar 10) (TArr tchar 0) = Accept /\
  ~ fits (TArr tchar 10) (TArr tchar 5).
Proof. exact short_string. Qed.
Print Assumptions C51_short_string_refuted.

Theorem C51_wide_elements_refuted :
  coerce Argument (TArr tlong 10) (TArr tany 10) = Accept /\
  coerce Argument (TArr tany 10) (TArr tlong 10) = Accept /\
  ~ fits (TArr tlong 10) (TArr tany 10).
Proof. exact wide_elements. Qed.
Print Assumptions C51_wide_elements_refuted.

Theorem C51_rows_as_any_refuted :
  coerce Argument (TArr tany 0) (TArr (TArr tint 4) 3) = Accept /\
  ~ fits (TArr tany 0) (TArr (TArr tint 4) 3).
Proof. exact any_takes_rows. Qed.
Print Assumptions C51_rows_as_any_refuted.

Theorem C51_void_signature_refuted :
  let f := (tvoid, [tint], false) in
  let a := (tint, [TArr tchar 0; TRef tfloat], false) in
  coerce Argument (TFun 1 (Some [f])) (TFun 2 (Some [a])) = Accept /\ ~ agree f a.
Proof. exact void_sig. Qed.
Print Assumptions C51_void_signature_refuted.

Theorem C51_callback_arguments_refuted :
  check sig_flags Generic (TArr tint 0) (TArr tint 10) = Accept /\
  ~ fits (TArr tint 10) (TArr tint 0) /\
  check sig_flags Generic tany (TRef tint) = Accept /\ rep_of tany <> rep_of (TRef tint).
Proof. exact sig_contravariant. Qed.
Print Assumptions C51_callback_arguments_refuted.

Theorem C51_reference_to_function_refuted :
  let f := (tvoid, [tint], false) in
  coerce Assignment (TRef (TFun 1 (Some [f]))) (TFun 2 (Some [f])) = Broken.
Proof. exact broken_case. Qed.
Print Assumptions C51_reference_to_function_refuted.

Example C51_values_case :
  coerce Argument handle pack = Accept /\ coerce Argument pack handle = Refuse /\
  coerce Argument tint (TEnum 5) = Accept /\ coerce Argument (TEnum 5) (TEnum 6) = Refuse /\
  coerce Argument tint tfloat = Refuse /\ coerce Argument tfloat tint = Accept /\
  coerce Return (TRef tint) (TRef tint) = Accept.
Proof. exact value_case. Qed.

Example C51_arrays_case :
  coerce Argument (TArr (TArr tint 4) 0) (TArr (TArr tint 4) 3) = Accept /\
  not_mixed (TArr (TArr tint 4) 0) (as_array (TArr (TArr tint 4) 3)) /\
  coerce Argument (TArr tany 0) (TStruct 9 7) = Accept /\
  not_mixed (TArr tany 0) (as_array (TStruct 9 7)) /\
  coerce Argument (TArr (TArr tchar 8) 2) (TArr (TArr tchar 6) 2) = Accept /\
  coerce Argument (TArr tint 4) (TArr tint 3) = Refuse.
Proof. exact array_case. Qed.

Example C51_functions_case :
  let f := (tvoid, [tint; TArr tchar 0], false) in
  let a := (tvoid, [tint; TArr tchar 0], false) in
  let b := (tvoid, [tfloat; TArr tchar 0], false) in
  rev [a] = a :: [] /\ (1 <> 2) /\
  coerce Argument (TFun 1 (Some [b; f])) (TFun 2 (Some [a])) = Accept /\
  coerce Argument (TFun 1 (Some [b])) (TFun 2 (Some [a])) = Refuse.
Proof. exact function_case. Qed.
