(* C57: the arguments of calls. *)
From Verif Require Import Base Arg_Model Arg_Spec Arg_Cases Rt_Model Rt_Spec Interp_Model Gen_Model Gen_Spec Gen_Cases Arg_Emit Arg_EmitSpec Stm_Model Stm_Spec Arg_EmitCases Arg_CallCases.
From Verif Require Arg_EmitProofs Arg_Call.

(* An accepted call is right (its arguments are in order, their names exist, none is written twice, none is too many, none that
   is needed is missing), every position receives the argument written for it or else its own default, every parameter is
   among the positions, and no argument is lost.  Missing: ".name = _", below. *)
Theorem C57_accepted_partial {E} params (conv : nat -> E -> option E) this w r :
  shaped params -> takes_this params this -> no_dot_skip w -> call params conv this w = Accepted r ->
  right params conv this w /\
  (forall i, (i < length r)%nat -> exists f, nth_error r i = Some (Some f) /\ receives params conv this w i f) /\
  (forall i p, nth_error params i = Some p -> p_varargs p = false -> (i < length r)%nat) /\
  (forall k s, meant_for params this w k s -> (s < length r)%nat).
Proof. exact (fun A B C => Arg_Cases.accepted params conv this w A B C r). Qed.
Print Assumptions C57_accepted_partial.
Example C57_accepted_example : shaped f_params /\
  call f_params any_conv None [Plain 1; Skip; Plain 3; Plain 4; Plain 5] =
    Accepted [Some (Given 101); Some (DefaultOf 1); Some (Given 103); Some (Given 104); Some (Given 105)] /\
  call f_params any_conv (Some 7) [Dot 2 3; Dot 1 2] = Accepted [Some (Given 107); Some (Given 102); Some (Given 103)].
Proof. exact (conj f_shaped (proj2 f_calls)). Qed.

(* A call that is right is accepted.  Missing: the same. *)
Theorem C57_right_accepted_partial {E} params (conv : nat -> E -> option E) this w :
  shaped params -> takes_this params this -> no_dot_skip w -> right params conv this w ->
  exists r, call params conv this w = Accepted r.
Proof. exact (right_accepted params conv this w). Qed.
Print Assumptions C57_right_accepted_partial.
Example C57_refused_example :
  call f_params any_conv None [] = Refused 34 /\ call f_params any_conv None [Plain 1; Dot 0 2] = Refused 58 /\
  call f_params any_conv None [Dot 1 1; Plain 2] = Refused 44 /\ call f_params any_conv None [Plain 1; Dot 7 1] = Refused 17 /\
  call f_params any_conv None [Plain 13] = Refused 0 /\ call f_params any_conv None [Plain 1; Plain 2; Plain 3; Skip] = Refused 92.
Proof. exact f_refused. Qed.

(* With ".name = _" both are false.  g(.c = 7, .d = _), every parameter having a default: b is passed the default of d. *)
Theorem C57_named_default_refuted : shaped g_params /\
  call g_params any_conv None [Dot 2 7; DotSkip 3] =
    Accepted [Some (DefaultOf 0); Some (DefaultOf 3); Some (Given 107); Some (DefaultOf 3)] /\
  ~ receives g_params any_conv None [Dot 2 7; DotSkip 3] 1 (DefaultOf 3).
Proof. exact g_wrong. Qed.
Print Assumptions C57_named_default_refuted.
(* h(.b = _, .a = 5) is right and is refused. *)
Theorem C57_named_default_refused_refuted : shaped h_params /\ right h_params any_conv None [DotSkip 1; Dot 0 5] /\
  call h_params any_conv None [DotSkip 1; Dot 0 5] = Refused 34.
Proof. exact h_refused. Qed.
Print Assumptions C57_named_default_refused_refuted.

(* The code of a call of a function of the plugin, wherever it stands in the code.  An argument is an integer, or a variable or
   an array cell passed by reference, or an array, both passed as the address of the very cell the source names, or an integer
   passed for "...", passed as the address of a temporary that then holds it.  The arguments are evaluated, the last one first, and control arrives at the called function with their number and each of them in its place
   in the new frame, the i-th parameter reading as the i-th argument; a suspended caller will go on after the call.
   If evaluating an argument is an error, that error ends the run.  The last hypothesis: there is room for the frame. *)
Theorem C57_passed : forall M sc obase glab ga h pre post es n f kf callee st m q p a,
  built h M -> h = pre ++ call_code glab ga es n f ++ post -> 0 < cells_of post ->
  placed_data M sc obase (resolve h) glab ga -> (forall c, m_tmo M c = false) -> (forall e, In e es -> accepted_arg e) ->
  holds M sc obase st m -> hp (m_rt M) + 4 * push_depth es < q <= sp (m_rt M) ->
  resolve h f = 4 * kf -> 0 <= kf < Z.of_nat (length (p_code (m_prog M))) -> p_validate (m_prog M) (4 * kf) = inl callee ->
  StackSizeForLocalSlots callee <= 0 ->
  hp (m_rt M) + 4 * Z.of_nat (length es) + 80 - StackSizeForLocalSlots callee <= q ->
  match eval_args sc es st with
  | Val vs st' => exists r p' a',
      gets M (at_ M m q (cells_of pre) p a) (mkConfig r (mkAct callee (kf + 1) 0 0)
        (mkAct (m_meth M) (cells_of pre + cells_of (call_code glab ga es n f)) p' a' :: m_callers M)) /\
      called M callee q (map (word obase) vs) r /\ holds M sc obase st' (mem r) /\ only_data M sc obase q m (mem r)
  | Err e st' => stops M sc obase (at_ M m q (cells_of pre) p a) e st'
  | Unspecified => True
  end.
Proof. exact Arg_EmitProofs.call_correct. Qed.
Print Assumptions C57_passed.
(* f(x, &x, b += 2, &b, &r, &arr[2], arr, 7), the last parameter being "..." *)
Example C57_passed_example : let M := call_machine (code_of call_history) in
  built call_history M /\ 0 < cells_of [Emit [48]] /\
  placed_data M the_scope the_base (resolve call_history) the_lab call_ga /\
  (forall c, m_tmo M c = false) /\ (forall e, In e the_args -> accepted_arg e) /\ holds M the_scope the_base the_store the_mem /\
  hp (m_rt M) + 4 * push_depth the_args < 16384 <= sp (m_rt M) /\
  resolve call_history 3 = 4 * 0 /\ 0 <= 0 < Z.of_nat (length (p_code (m_prog M))) /\ p_validate (m_prog M) (4 * 0) = inl the_callee /\
  StackSizeForLocalSlots the_callee <= 0 /\
  hp (m_rt M) + 4 * Z.of_nat (length the_args) + 80 - StackSizeForLocalSlots the_callee <= 16384.
Proof. exact call_hypotheses. Qed.
Example C57_passed_values : match eval_args the_scope the_args the_store with Val vs st => vs = the_passed /\ st (1%nat, 0) = 2 /\ st (4%nat, 0) = 7 | _ => False end.
Proof. exact call_values. Qed.
Example C57_passed_words : map (word the_base) the_passed = the_words.
Proof. exact call_words. Qed.

(* When the called function returns, with its frame's bookkeeping as it was, the caller goes on after the call with the value
   in PRI and with its own frame, heap top and stack top as they were when the call's code was entered. *)
Theorem C57_return : forall M sc obase wh glab ga callee q vs r r' pc v a k' p' a',
  placed_data M sc obase wh glab ga -> data_size (m_rt M) <= hp (m_rt M) -> called M callee q vs r -> q <= sp (m_rt M) -> in_call M r r' ->
  0 <= pc < Z.of_nat (length (p_code (m_prog M))) -> cell_at (p_code (m_prog M)) pc = 48 ->
  vstep M (mkConfig r' (mkAct callee pc v a) (mkAct (m_meth M) k' p' a' :: m_callers M)) = Next false (at_ M (mem r') q k' v a').
Proof.
  exact (fun M sc obase wh glab ga callee q vs r r' pc v a k' p' a' PD =>
    Arg_EmitProofs.returns M sc obase wh glab ga PD callee q vs r r' pc v a k' p' a').
Qed.
Print Assumptions C57_return.
Example C57_return_example : let M := call_machine (code_of call_history) in data_size (m_rt M) <= hp (m_rt M) /\
  exists r, called M the_callee 16384 the_words r /\ in_call M r r /\ cell_at (p_code (m_prog M)) 1 = 48.
Proof. exact call_returns. Qed.

(* The code of a call of a native that is bound and is not replaced by an instruction: the host function is handed the number of
   arguments and the arguments, in order; when it returns, the caller goes on after the call with its result in PRI and its own
   heap and stack tops; when it fails, the run ends with its error. *)
Theorem C57_native : forall M sc obase glab ga h pre post es n f nt host st m q p a,
  built h M -> h = pre ++ native_code glab ga es n f ++ post -> 0 < cells_of post ->
  placed_data M sc obase (resolve h) glab ga -> (forall c, m_tmo M c = false) -> (forall e, In e es -> accepted_arg e) ->
  holds M sc obase st m -> hp (m_rt M) + 4 * push_depth es < q <= sp (m_rt M) -> hp (m_rt M) + 4 * Z.of_nat (length es) + 4 < q ->
  is_i32 (resolve h f) -> p_natives (m_prog M) (resolve h f) = Some nt -> n_fn nt = Some host -> n_repl nt = None ->
  match eval_args sc es st with
  | Val vs st' => exists s c a', gets M (at_ M m q (cells_of pre) p a) c /\ handed s (map (word obase) vs) /\
      holds M sc obase st' (mem s) /\ only_data M sc obase q m (mem s) /\
      sp s = q - 4 * (Z.of_nat (length vs) + 1) /\ hp s = hp (m_rt M) /\ frm s = frm (m_rt M) /\
      (forall v r, host s = Ok v r -> same_plugin s r ->
         vstep M c = Next false (mkConfig (set_sp q (set_hp (hp (m_rt M)) r))
           (mkAct (m_meth M) (cells_of pre + cells_of (native_code glab ga es n f)) v a') (m_callers M))) /\
      (forall e r, host s = Fail e r -> exists r', vstep M c = Stop e r' /\ mem r' = mem r)
  | Err e st' => stops M sc obase (at_ M m q (cells_of pre) p a) e st'
  | Unspecified => True
  end.
Proof. exact Arg_EmitProofs.native_correct. Qed.
Print Assumptions C57_native.
Example C57_native_example : let M := native_machine (code_of native_history) in
  built native_history M /\ 0 < cells_of [Emit [48]] /\
  placed_data M the_scope the_base (resolve native_history) the_lab native_ga /\
  (forall c, m_tmo M c = false) /\ (forall e, In e the_args -> accepted_arg e) /\ holds M the_scope the_base the_store the_mem /\
  hp (m_rt M) + 4 * push_depth the_args < 16384 <= sp (m_rt M) /\ hp (m_rt M) + 4 * Z.of_nat (length the_args) + 4 < 16384 /\
  is_i32 (resolve native_history 3) /\
  p_natives (m_prog M) (resolve native_history 3) = Some (mkNative (Some the_host) None).
Proof. exact native_hypotheses. Qed.

(* A whole call: when the arguments have values, the called function's body is executed, as the statements of the source say,
   from a store in which the parameters have those values and the variables it shares with the caller the values they have
   there; the caller then goes on after the call with the value returned, the variables shared as the function left them and the
   others as they were.  An error in the body ends the run with that error, and a body that does not end is run for ever. *)
Theorem C57_call : forall M sc obase glab ga h pre post es n f callee st m q p a before after ga' body nb sc' obase' F,
  built h M -> h = pre ++ call_code glab ga es n f ++ post -> 0 < cells_of post ->
  placed_data M sc obase (resolve h) glab ga -> (forall c, m_tmo M c = false) -> (forall e, In e es -> accepted_arg e) ->
  holds M sc obase st m -> hp (m_rt M) + 4 * push_depth es < q <= sp (m_rt M) -> data_size (m_rt M) <= hp (m_rt M) ->
  h = before ++ gfun glab ga' body nb ++ after -> resolve h f = 4 * cells_of before ->
  p_validate (m_prog M) (4 * cells_of before) = inl callee -> typed callee = true ->
  StackSizeForLocalSlots callee <= 0 ->
  hp (m_rt M) + 4 * Z.of_nat (length es) + 80 - StackSizeForLocalSlots callee <= q ->
  let M' := callee_machine M callee q (length es) in
  placed_data M' sc' obase' (resolve h) glab ga' -> accepted_s false body -> hp (m_rt M') + 4 * sdepth body < sp (m_rt M') ->
  match eval_args sc es st with
  | Val vs st' => own_view M callee q (map (word obase) vs) sc' obase' ->
      exists st0, call_starts sc obase st' sc' obase' q (map (word obase) vs) st0 /\
      match execs_body sc' F body st0 with
      | Fin (Ret v) st1 => exists m' a', is_i32 v /\
          gets M (at_ M m q (cells_of pre) p a) (at_ M m' q (cells_of pre + cells_of (call_code glab ga es n f)) v a') /\
          call_ends sc obase st' sc' obase' st1 m' /\ call_keeps M sc obase sc' obase' q m m'
      | Fin _ _ => False
      | SErr e st1 => exists k r, vrun M k (at_ M m q (cells_of pre) p a) = inl (Stop e r) /\
          forall x, live sc' x -> load32 (mem r) (adr obase' x) = st1 x
      | SUnspec => True
      | SFuel => exists c', vrun M F (at_ M m q (cells_of pre) p a) = inr c'
      end
  | Err e st' => stops M sc obase (at_ M m q (cells_of pre) p a) e st'
  | Unspecified => True
  end.
Proof. exact Arg_Call.call_runs. Qed.
Print Assumptions C57_call.
(* f(b += 2, &x, arr), of int f(int n, int &r, int v[3]) { int i = 0; while (i < n) { r += v[2]; i++; } a = r; return i * r + n; } *)
Example C57_call_example : let M := whole_machine in let M' := callee_machine M f_meth 16384 (length f_args) in
  built whole_history M /\ 0 < cells_of [Emit [48]] /\
  placed_data M the_scope the_base (resolve whole_history) the_lab main_ga /\
  (forall c, m_tmo M c = false) /\ (forall e, In e f_args -> accepted_arg e) /\ holds M the_scope the_base the_store the_mem /\
  hp (m_rt M) + 4 * push_depth f_args < 16384 <= sp (m_rt M) /\ data_size (m_rt M) <= hp (m_rt M) /\
  whole_history = f_before ++ gfun the_lab f_ga f_body 4 ++ ([Emit [46]] ++ main_code ++ [Emit [48]]) /\
  resolve whole_history 3 = 4 * cells_of f_before /\ p_validate (m_prog M) (4 * cells_of f_before) = inl f_meth /\
  typed f_meth = true /\ StackSizeForLocalSlots f_meth <= 0 /\
  hp (m_rt M) + 4 * Z.of_nat (length f_args) + 80 - StackSizeForLocalSlots f_meth <= 16384 /\
  placed_data M' f_scope f_base (resolve whole_history) the_lab f_ga /\ accepted_s false f_body /\
  hp (m_rt M') + 4 * sdepth f_body < sp (m_rt M').
Proof. exact whole_hypotheses. Qed.
Example C57_call_view : own_view whole_machine f_meth 16384 f_words f_scope f_base.
Proof. exact f_view. Qed.
Example C57_call_values : match eval_args the_scope f_args the_store with
  | Val vs st => map (word the_base) vs = f_words /\ st (1%nat, 0) = 2 /\ call_starts the_scope the_base st f_scope f_base 16384 f_words f_store
  | _ => False end.
Proof. exact f_values. Qed.
Example C57_call_result : match execs_body f_scope 20 f_body f_store with
  | Fin (Ret v) st => (v, st (3%nat, 0), st (0%nat, 0)) = (60, 29, 29) | _ => False end.
Proof. exact f_returns. Qed.
