(* What the verifier's verdict should mean, in terms of the decoder and of paths through the code. *)
From Verif Require Import Base Rtti_Model Rtti_Spec Rt_Model Array_Model Interp_Model Cfg_Model Cfg_Spec Dom_Model Ver_Model.

(* How the instruction [i] moves the stack, in cells, in order: positive entries are pushed, negative ones
   popped.  A call pops its arguments and their count; the count is the constant pushed last by the
   instruction executed before it, [prev].  [None]: a call not preceded by a push of a constant. *)
Definition moves (code : list Z) (prev : option Z) (i : instr) : option (list Z) :=
  match i with
  | PUSHR _ => Some [1]
  | PUSH_C l | PUSH l | PUSH_S l | PUSH_ADR l => Some [Z.of_nat (length l)]
  | PUSH_I_I64 => Some [2]
  | POP _ => Some [-1]
  | SWAP _ => Some [-1; 1]
  | STACK v => Some [- (v / 4)]
  | SYSREQ_N _ k => Some [1; - (k + 1)]
  | GENARRAY n _ => Some [- (n - 1)]
  | CALL _ =>
    match prev with
    | Some c => match decode code c with Some (PUSH_C l) => Some [- (last l 0 + 1)] | _ => None end
    | None => None
    end
  | _ => Some []
  end.

Definition total (ms : list Z) : Z := fold_right Z.add 0 ms.

(* Execution of the method whose PROC is at cell [m] can arrive at [pc], from the instruction [prev], with
   [d] cells pushed below the frame. *)
Inductive at_depth (code : list Z) (m : Z) : option Z -> Z -> Z -> Prop :=
| depth_first : at_depth code m None (m + 1) 0
| depth_fall prev pc d i ms : at_depth code m prev pc d -> decode code pc = Some i -> moves code prev i = Some ms ->
    falls_through code pc -> at_depth code m (Some pc) (pc + insn_size code pc) (d + total ms)
| depth_jump prev pc d i ms o : at_depth code m prev pc d -> decode code pc = Some i -> moves code prev i = Some ms ->
    jumps_to code pc o -> at_depth code m (Some pc) (o / 4) (d + total ms).

(* From depth [d] on, the moves [ms] never pop more than the method pushed, nor does the depth exceed [max]
   bytes. *)
Fixpoint follows (d : Z) (ms : list Z) (max : Z) : Prop :=
  0 <= d /\ 4 * d <= max /\ match ms with [] => True | x :: rest => follows (d + x) rest max end.

(* The types a local slot can have, and their sizes: an array is kept by its address. *)
Definition slot_type (ty : ctype) : Prop := good_type ty /\ form ty <> Reference /\ forall i, base ty <> LStruct i.
Definition slot_bytes (ty : ctype) : Z :=
  match form ty, base ty with Arrays _ _, _ => 4 | _, LInt64 => 8 | _, _ => 4 end.

(* The method's table of local slots is absent, or what the compiler writes for the types [tys]. *)
Definition compiled_slots (env : venv) (o : Z) (tys : list ctype) : Prop :=
  forall t rows r, v_rtti env = Some (t, rows) -> method_row rows o = Some r ->
    m_locals r = 0 /\ tys = [] \/
    0 < m_locals r /\ Forall slot_type tys /\ Z.of_nat (length tys) < 65536 /\
    exists rest, holds t (m_locals r) (encode_local_slots tys ++ rest).

(* --- Operands --- *)

(* The frame slots an instruction names, with the width it accesses them at (0: only their address). *)
Definition slots_named (i : instr) : list (Z * Z) :=
  match i with
  | ADDR _ o => [(o, 0)]
  | LOAD_S _ o | LREF_S _ o | SREF_S o _ | STOR_S o _ | INC_S o | DEC_S o | ZERO_S o | STOR_S_C o _ | CONST_S o _ => [(o, 4)]
  | LOAD_S_BOTH a b => [(a, 4); (b, 4)]
  | ZERO_S_I64 o | UN64 _ o | CVT_I64 o | BIN64 _ o | STOR_S_PRI_I64 o | STOR_S_C_I64 o _ _ => [(o, 8)]
  | PUSH_S l => map (fun o => (o, 4)) l
  | PUSH_ADR l => map (fun o => (o, 0)) l
  | _ => []
  end.

(* The addresses of static data it names. *)
Definition globals_named (i : instr) : list Z :=
  match i with
  | LOAD _ a | STOR a _ | INC a | DEC a | ZERO a | CONSTM a _ => [a]
  | LOAD_BOTH a b => [a; b]
  | PUSH l => l
  | _ => []
  end.

(* A slot that exists with [d] cells pushed: in typed code an argument or a local of that width; in untyped code one
   of the pushed cells, or an offset that fits the plugin's stack and heap. *)
Definition slot_ok (env : venv) (args : Z) (sizes : list Z) (d : Z) (s : Z * Z) : Prop :=
  let (o, w) := s in
  if v_typed env then
    if o <? 0 then 0 <= - o - 1 < args
    else o < Z.of_nat (length sizes) /\ (w = 0 \/ nth (Z.to_nat o) sizes 0 = w)
  else if o <? 0 then - o <= 4 * d
  else o < v_mem env - v_dat env.

Definition operands_ok (env : venv) (args : Z) (sizes : list Z) (d : Z) (i : instr) : Prop :=
  Forall (slot_ok env args sizes d) (slots_named i) /\
  Forall (fun a => 0 <= a < v_dat env) (globals_named i) /\
  match i with
  | SYSREQ_C n => 0 <= n < v_natives env
  | SYSREQ_N n k => 0 <= n < v_natives env /\ 0 <= k <= d /\ k <= 127
  | MOVS n | FILL n => 0 <= n <= v_mem env
  | STACK v => v mod 4 = 0 /\ v <= 4 * d
  | HEAP v => v mod 4 = 0
  | GENARRAY n _ => 1 <= n <= d + 1
  | CALL o => 0 <= o < 4 * Z.of_nat (length (v_code env)) /\ o mod 4 = 0 /\ cell_at (v_code env) (o / 4) = OP_PROC
  | LODB_I w | STRB_I w => w = 1 \/ w = 2 \/ w = 4
  | INITARRAY _ a iv copy fill _ =>
      v_direct env = true /\ 0 <= iv /\ 0 <= copy /\ 0 <= fill /\ a mod 4 = 0 /\
      (0 < iv + copy -> 0 <= a /\ a + 4 * (iv + copy) <= v_dat env)
  | HALT _ => False
  | TRACKER_PUSH_C _ | TRACKER_POP_SETHEAP => v_scopes env = false
  | HEAP_SAVE | HEAP_RESTORE => v_scopes env = true
  | _ => True
  end.

(* The number of arguments in the method's signature. *)
Definition signature_args (env : venv) (o args : Z) : Prop :=
  forall t rows r, v_rtti env = Some (t, rows) -> method_row rows o = Some r ->
    exists p, ReadFunctionSignatureArgCount t (m_sig r) = Got (Some args) p.
