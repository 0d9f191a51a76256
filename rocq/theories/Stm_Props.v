(* C29: statements compile to code that does what they say. *)
From Verif Require Import Base Rt_Model Interp_Model Fold_Model Gen_Model Gen_Spec Gen_Link Gen_Cases Stm_Model Stm_Spec Stm_Link Stm_Cases.
From Verif Require Label_Model Label_Spec.

(* [before] and [after] are whatever else is emitted before and after the function's code.  In a machine running the
   resulting code, whose memory holds the values [st] of the program's variables on entry to the function (after PROC):
   if running the body from [st] returns [v], the machine arrives at a RETN instruction with [v] in PRI, the variables
   as the body leaves them, the stack top where it was, and nothing but the variables and the unused stack changed; if
   the body divides by zero (or overflows a division, or indexes outside an array), the run stops with that error, the
   assignments made before being done; and if [F] rounds of its loops do not suffice, [F] steps of the machine do not
   either. *)
Theorem C29_function : forall M sc obase glab ga h before after body n F st m q p a,
  built h M -> h = before ++ gfun glab ga body n ++ after ->
  placed_data M sc obase (resolve h) glab ga -> (forall c, m_tmo M c = false) -> accepted_s false body -> holds M sc obase st m ->
  hp (m_rt M) + 4 * sdepth body < q <= sp (m_rt M) ->
  behaves M sc obase F m (at_ M m q (cells_of before + 1) p a) q (execs_body sc F body st) (returning M q).
Proof. exact function_correct. Qed.
Print Assumptions C29_function.

(* A body that runs for ever is run for ever: the machine never stops. *)
Theorem C29_diverges : forall M sc obase glab ga h before after body n st m q p a,
  built h M -> h = before ++ gfun glab ga body n ++ after ->
  placed_data M sc obase (resolve h) glab ga -> (forall c, m_tmo M c = false) -> accepted_s false body -> holds M sc obase st m ->
  hp (m_rt M) + 4 * sdepth body < q <= sp (m_rt M) -> (forall F, execs_body sc F body st = SFuel) ->
  forall k, exists c', vrun M k (at_ M m q (cells_of before + 1) p a) = inr c'.
Proof. exact function_diverges. Qed.
Print Assumptions C29_diverges.

(* The code of a function places only labels of its own, each once, and refers only to them and to globals: every jump
   of it goes somewhere in it. *)
Theorem C29_labels : forall glab ga body n before, Label_Spec.well_used before -> accepted_s false body ->
  (forall l, (n <= l < n + ns body)%nat -> Label_Spec.placed 0 before l = None) ->
  4 * cells_of (before ++ gfun glab ga body n) <= Label_Model.INT_MAX / 2 ->
  Label_Spec.well_used (before ++ gfun glab ga body n) /\
  (forall l, In (Label_Spec.Ref l) (Label_Spec.items (gfun glab ga body n)) ->
     (exists g, l = glab g) \/ Label_Spec.placed 0 (gfun glab ga body n) l <> None) /\
  (forall l, Label_Spec.placed 0 (gfun glab ga body n) l <> None -> (n <= l < n + ns body)%nat).
Proof. exact function_labels. Qed.
Print Assumptions C29_labels.

(* The function of Stm_Cases (for with continue, a switch with a break out of the loop, do with a return, an endless
   while) meets the hypotheses, and returns 132. *)
Example hypotheses_met : let M := the_machine (code_of function_history) in
  built function_history M /\
  placed_data M the_scope the_base (resolve function_history) the_lab (fun g => address_now before_code (the_lab g)) /\
  (forall c, m_tmo M c = false) /\ accepted_s false the_body /\ holds M the_scope the_base the_store the_mem /\
  hp (m_rt M) + 4 * sdepth the_body < 16384 <= sp (m_rt M).
Proof. exact function_hypotheses. Qed.
Example it_returns_132 : let r := execs_body the_scope 20 the_body the_store in
  returned r = Some 132 /\ cell_after r (3%nat, 0) = Some 7 /\ cell_after r (1%nat, 0) = Some 132 /\ cell_after r (4%nat, 0) = Some 2.
Proof. exact the_function_returns. Qed.
