(* C24: exceptions propagate to the innermost handler. *)
From Verif Require Import Base Exc_Model Exc_Spec Exc_Proofs.

(* Host code that opens scopes, reports errors, passes errors on and calls plugin functions, to any
   nesting: every scope sees exactly the error structured exceptions say it should, and after the
   outermost scope nothing is pending and no handler is left; no assertion fails. *)
Theorem C24_structured strict body pass msg0 : real_errors (Scope body pass) ->
  exists s x o, means_all body s x /\ run strict [Scope body pass] (mkEnv [] SP_ERROR_NONE msg0) = Some o /\
    seen o = s ++ [x] /\ handlers (o_env o) = [] /\ hasPendingException (o_env o) = false.
Proof. exact (outermost strict body pass msg0). Qed.
Print Assumptions C24_structured.

(* Structured exceptions have one meaning. *)
Theorem C24_determined hs s x s' x' : means_all hs s x -> means_all hs s' x' -> s' = s /\ x' = x.
Proof. exact (fun M => proj2 means_fun hs s x M s' x'). Qed.
Print Assumptions C24_determined.

(* Code that reports a second error while one is pending: a build with assertions stops, any other
   keeps the second one, so the first error does not win. *)
Theorem C24_first_error_refuted : exists e c1 m1 c2 m2 e1 e2, handlers e <> [] /\ c1 <> c2 /\
  DispatchReport false c1 m1 e = Some e1 /\ DispatchReport false c2 m2 e1 = Some e2 /\ Seen e2 = Some (c2, m2) /\
  DispatchReport true c2 m2 e1 = None.
Proof. exact second_report_exists. Qed.
Print Assumptions C24_first_error_refuted.

(* An error passed on through two scopes and caught by the third, then another one after it. *)
Example C24_case :
  let body := [Scope [Scope [InvokeFn [Report 14 [68]]; Report 99 []] true; Report 98 []] false; Execute [Report 7 []]; Report 23 [69]] in
  real_errors (Scope body true) /\
  means_all body [Some (14, [68]); Some (14, [68]); Some (7, [])] (Some (23, [69])) /\
  (match run true [Scope body true] (mkEnv [] SP_ERROR_NONE []) with
   | Some o => match seen o with [Some (14, _); Some (14, _); Some (7, _); Some (23, _)] => true | _ => false end
   | None => false end) = true.
Proof.
  cbv zeta. split; [cbn; unfold SP_ERROR_NONE; repeat split; discriminate|]. split; [|reflexivity].
  apply (m_next _ _ [Some (14, [68]); Some (14, [68])] [Some (7, [])]).
  - apply (m_catch _ [Some (14, [68])] (Some (14, [68]))). apply m_stop. apply (m_pass _ [] (Some (14, [68]))).
    apply m_stop. apply m_invoke. apply m_stop. apply m_report.
  - apply (m_next _ _ [Some (7, [])] []).
    + apply (m_execute _ [] (Some (7, []))). apply m_stop, m_report.
    + apply m_stop, m_report.
Qed.
