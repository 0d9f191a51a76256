(* C55: a name means the innermost declaration that is around it. *)

From Coq Require Import ZArith List Bool.
From Verif Require Import Names_Model Names_Spec Names_Proofs Names_Cases.
Import ListNotations.
Local Open Scope Z_scope.

(* No error is reported about names exactly when every name that is used is
   visible where it is used and no name is declared twice at one place.
   Left out: functions whose names are those of other things, or that are not
   one forward and one public function (see the refutations); methodmaps,
   pstructs and types. *)
Theorem C55_accepted_iff_well_named_partial : forall files p,
  files_exist files p -> natives_bodiless p ->
  functions_paired (occurrences p) -> places_differ (occurrences p) ->
  (accepted (resolve_names files p) <-> well_named (occurrences p)).
Proof. exact accepts. Qed.
Print Assumptions C55_accepted_iff_well_named_partial.

(* Each use is bound to the declaration in the innermost of the blocks around
   it, of those read before it, and then taken for the half of it that has the
   body; and nothing else is bound. *)
Theorem C55_innermost_partial : forall files p,
  files_exist files p -> natives_bodiless p ->
  functions_paired (occurrences p) -> places_differ (occurrences p) ->
  well_named (occurrences p) ->
  forall u d c, In (Bound u d c) (st_out (resolve_names files p)) <->
  exists P R q n D q' dd, occurrences p = P ++ OUse q u n :: R /\ declares P D /\
    means D q n q' dd /\ d = d_pos dd /\ taken_for P dd c.
Proof. exact bound_innermost. Qed.
Print Assumptions C55_innermost_partial.

(* The declarations that are warned of are those that hide another. *)
Theorem C55_warned_iff_hides_partial : forall files p,
  files_exist files p -> natives_bodiless p ->
  functions_paired (occurrences p) -> places_differ (occurrences p) ->
  well_named (occurrences p) ->
  forall x, In (Shadow x) (st_out (resolve_names files p)) <->
  exists P R o D, occurrences p = P ++ o :: R /\ declares P D /\ hides D o /\ x = place_of o.
Proof. exact warned. Qed.
Print Assumptions C55_warned_iff_hides_partial.

(* A program to which the three apply. *)
Example C55_applies : exists files p, files_exist files p /\ natives_bodiless p /\
  functions_paired (occurrences p) /\ places_differ (occurrences p) /\ well_named (occurrences p) /\
  st_out (resolve_names files p) =
    [Bound 100 2 2; Shadow 5; Bound 101 5 5; Shadow 6; Bound 102 1 3; Bound 103 4 4].
Proof. exact names_case. Qed.
Print Assumptions C55_applies.

(* The name a variable declares is not yet visible in its initialiser; the name
   a constant declares in a function is: it means the constant itself, whose
   value is not known yet. *)
Theorem C55_constant_outside_its_value_refuted :
  st_out (resolve_names 1 (with_local (SVar 3 10 (EUse 100 10)))) = [Bound 100 1 1; Shadow 3] /\
  st_out (resolve_names 1 (with_local (SConst 3 10 (EUse 100 10)))) = [Shadow 3; Bound 100 3 3].
Proof. exact constant_means_itself. Qed.
Print Assumptions C55_constant_outside_its_value_refuted.

(* A second implementation of a forward is refused if it is public.  If it is
   not, it passes with a warning and an assertion fails (without assertions, it
   replaces the first).  A second forward after a public function fails the
   same assertion. *)
Theorem C55_one_implementation_refuted :
  st_out (resolve_names 1 (three fwd pub pub)) = [Redef 3] /\
  st_out (resolve_names 1 (three fwd pub plain)) = [NotPublic 3; Failed] /\
  st_out (resolve_names 1 (three pub fwd fwd)) = [Failed].
Proof. exact third_implementation. Qed.
Print Assumptions C55_one_implementation_refuted.

(* A native that has the name of a function before it is accepted in silence as
   the other half of that function; the other way round it is an error. *)
Theorem C55_native_is_not_a_half_refuted :
  st_out (resolve_names 1 (two plain nat_)) = [] /\
  st_out (resolve_names 1 (two nat_ plain)) = [Redef 2].
Proof. exact native_after_function. Qed.
Print Assumptions C55_native_is_not_a_half_refuted.

(* Whether a static variable and a global one may have the same name depends on
   which comes first. *)
Theorem C55_order_does_not_matter_refuted :
  st_out (resolve_names 1 [(0%nat, TVar false 1 10 ENone); (0%nat, TVar true 2 10 ENone)]) =
    [Shadow 2] /\
  st_out (resolve_names 1 [(0%nat, TVar true 1 10 ENone); (0%nat, TVar false 2 10 ENone)]) =
    [Redef 2].
Proof. exact static_order. Qed.
Print Assumptions C55_order_does_not_matter_refuted.
