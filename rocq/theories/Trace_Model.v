(* The frames of running code and how they are listed: vm/stack-frames.cpp and
   .h, the frames of x64 code (vm/x64/macro-assembler-x64.{h,cpp},
   frames-x64.h, code-stubs-x64.cpp, jit_x64.cpp) and the table that leads from
   positions of machine code back to the script (vm/jit.{h,cpp},
   compiled-function.cpp).  The machine's stack is a memory of 64-bit words
   addressed by number of words; registers other than rsp and rbp are not
   modelled. *)
From Coq Require Import ZArith List Bool.
From Verif Require Import Base.
Import ListNotations.
Local Open Scope Z_scope.

(* ---- words that tell one frame from another ---- *)

(* JitFrameType (stack-frames.h:45): None, Entry, Scripted, Exit. *)
Definition t_entry := 1.
Definition t_scripted := 2.
Definition t_exit := 3.

(* ExitFrameType (stack-frames.h:49). *)
Definition x_native := 0.
Definition x_helper := 1.

(* EncodeExitFrameId, GetExitFrameType, GetExitFramePayload
   (stack-frames.h:53-68).  The assertion on the payload (below 2^61) holds of
   every 32-bit index. *)
Definition encode_exit (ty payload : Z) : Z := Z.lor (Z.shiftl payload 3) ty.
Definition exit_type (v : Z) : Z := Z.land v 7.
Definition exit_payload (v : Z) : Z := Z.shiftr v 3.

(* The word enterFrame and pushInlineExitFrame push
   (macro-assembler-x64.cpp:22-29, macro-assembler-x64.h:75-83). *)
Definition frame_word (ty id : Z) : Z := u64 (Z.lor (Z.shiftl id 32) ty).

(* FrameLayout::function_id and frame_type (frames-x64.h:44-45). *)
Definition function_id (w : Z) : Z := wrap32 (Z.shiftr w 32).
Definition frame_type (w : Z) : Z := wrap32 w.

(* ---- the machine ---- *)

(* InvokeFrame and its two kinds (stack-frames.h:75-153); entry_cip_ is never
   read.  [native] is native_index_, -1 outside natives. *)
Inductive ivk : Type :=
| IvJit (cx prev_exit : Z)
| IvInt (cx method cip native : Z).

(* [top]: Environment::top_ with the frames behind it; [exit_fp]:
   Environment::exit_fp_ (environment.h:266-267). *)
Record mach : Type := Mach {
  mem : Z -> Z;
  rsp : Z;
  rbp : Z;
  exit_fp : Z;
  top : list ivk
}.

Definition upd (f : Z -> Z) (a v : Z) : Z -> Z := fun x => if x =? a then v else f x.

Definition set_rsp (v : Z) (m : mach) : mach := Mach (mem m) v (rbp m) (exit_fp m) (top m).
Definition set_rbp (v : Z) (m : mach) : mach := Mach (mem m) (rsp m) v (exit_fp m) (top m).
Definition set_exit (v : Z) (m : mach) : mach := Mach (mem m) (rsp m) (rbp m) v (top m).
Definition set_top (l : list ivk) (m : mach) : mach :=
  Mach (mem m) (rsp m) (rbp m) (exit_fp m) l.

Definition push (v : Z) (m : mach) : mach :=
  Mach (upd (mem m) (rsp m - 1) v) (rsp m - 1) (rbp m) (exit_fp m) (top m).

Fixpoint push_all (l : list Z) (m : mach) : mach :=
  match l with
  | [] => m
  | v :: l => push_all l (push v m)
  end.

Definition drop (n : Z) (m : mach) : mach := set_rsp (rsp m + n) m.

(* MacroAssembler::enterFrame, leaveFrame (macro-assembler-x64.cpp:22-34). *)
Definition enterFrame (ty id : Z) (m : mach) : mach :=
  let m := push (rbp m) m in
  let m := set_rbp (rsp m) m in
  push (frame_word ty (u32 id)) m.

Definition leaveFrame (m : mach) : mach :=
  let m := set_rsp (rbp m) m in
  drop 1 (set_rbp (mem m (rsp m)) m).

(* enterExitFrame (macro-assembler-x64.cpp:36-40). *)
Definition enterExitFrame (ty payload : Z) (m : mach) : mach :=
  let m := enterFrame t_exit (encode_exit ty payload) m in
  set_exit (rbp m) m.

(* pushInlineExitFrame, popInlineExitFrame (macro-assembler-x64.h:75-87). *)
Definition pushInlineExitFrame (ty payload ret : Z) (m : mach) : mach :=
  let m := push ret m in
  let m := push (rbp m) m in
  let m := set_exit (rsp m) m in
  push (frame_word t_exit (encode_exit ty payload)) m.

(* ---- from machine code to the script ---- *)

(* CompiledFunction (compiled-function.h): where the code is, how long it is,
   and the pairs of emitCipMapping (jit.h:99-104). *)
Record compiled : Type := Compiled {
  c_entry : Z;
  c_size : Z;
  c_map : list (Z * Z)   (* pcoffs, cipoffs *)
}.

(* The methods of a plugin that have been compiled, by plugin and by the
   function's position: PluginRuntime::GetMethod, MethodInfo::jit. *)
Definition codebase := Z -> Z -> option compiled.

Definition kInvalidCip := 4294967295.

(* What an assertion of the code, or a lack of fuel, makes of a result. *)
Inductive got (A : Type) : Type :=
| Got (a : A)
| AssertFails
| OutOfFuel.
Arguments Got {A} _.
Arguments AssertFails {A}.
Arguments OutOfFuel {A}.

(* CompiledFunction::FindCipByPc (compiled-function.cpp:54-77); the search,
   qsort and bsearch there, finds an entry of that position if there is one. *)
Definition find_cip (fn : Z) (c : compiled) (pc : Z) : got Z :=
  if pc <? c_entry c then Got kInvalidCip
  else
    let pcoffs := u32 (pc - c_entry c) in
    if c_size c <? pcoffs then Got kInvalidCip
    else
      match find (fun e => fst e =? pcoffs) (c_map c) with
      | None => AssertFails
      | Some e => Got (u32 (fn + snd e))
      end.

(* ---- listing frames ---- *)

(* What a FrameIterator shows of a frame. *)
Inductive shown : Type :=
| ShScripted (cx fn cip : Z)
| ShNative (cx idx : Z)
| ShInternal (cx : Z).

(* JitFrameIterator (frame pointer and pc_) and InterpFrameIterator
   (current_ = Native or Scripted).  cip_ only keeps a result. *)
Inductive cursor : Type :=
| CJit (cx fp pc : Z)
| CInt (cx method cip native : Z) (at_native : bool).

(* FrameIterator: ivk_ with those behind it, next_exit_fp_, frame_cursor_. *)
Record iter : Type := Iter {
  it_ivks : list ivk;
  it_exit : Z;
  it_cursor : option cursor
}.

(* JitFrameIterator::JitFrameIterator (stack-frames.cpp:131-140). *)
Definition jit_start (mm : Z -> Z) (cx fp : Z) : got cursor :=
  if (frame_type (mm (fp - 1)) =? t_exit) && negb (mm (fp + 1) =? 0) && negb (mm fp =? 0)
  then Got (CJit cx fp 0) else AssertFails.

(* InterpFrameIterator::InterpFrameIterator (stack-frames.cpp:76-82). *)
Definition int_start (cx method cip native : Z) : cursor :=
  CInt cx method cip native (negb (native =? -1)).

(* FrameIterator::nextInvokeFrame (stack-frames.cpp:214-226). *)
Definition nextInvokeFrame (mm : Z -> Z) (l : list ivk) (ex : Z) : got iter :=
  match l with
  | [] => Got (Iter [] ex None)
  | IvJit cx prev :: _ =>
    match jit_start mm cx ex with
    | Got c => Got (Iter l prev (Some c))
    | AssertFails => AssertFails
    | OutOfFuel => OutOfFuel
    end
  | IvInt cx me ci na :: _ => Got (Iter l ex (Some (int_start cx me ci na)))
  end.

(* FrameIterator::Reset (stack-frames.cpp:249-257). *)
Definition reset (m : mach) : got iter := nextInvokeFrame (mem m) (top m) (exit_fp m).

(* done and next of the two inner iterators (stack-frames.cpp:84-93,
   142-155). *)
Definition cdone (mm : Z -> Z) (c : cursor) : bool :=
  match c with
  | CJit _ fp _ => frame_type (mm (fp - 1)) =? t_entry
  | CInt _ _ _ _ atn => negb atn
  end.

Definition cnext (mm : Z -> Z) (c : cursor) : cursor :=
  match c with
  | CJit cx fp _ => CJit cx (mm fp) (mm (fp + 1))
  | CInt cx me ci na _ => CInt cx me ci na false
  end.

(* FrameIterator::Next (stack-frames.cpp:234-246). *)
Definition next (mm : Z -> Z) (it : iter) : got iter :=
  match it_cursor it with
  | None => AssertFails
  | Some c =>
    if cdone mm c then nextInvokeFrame mm (tl (it_ivks it)) (it_exit it)
    else Got (Iter (it_ivks it) (it_exit it) (Some (cnext mm c)))
  end.

(* type, function_cip, cip and native_index of the inner iterators
   (stack-frames.cpp:95-125, 157-205). *)
Definition describe (code : codebase) (mm : Z -> Z) (c : cursor) : got shown :=
  match c with
  | CInt cx me ci na atn =>
    if atn then Got (ShNative cx (u32 na)) else Got (ShScripted cx me ci)
  | CJit cx fp pc =>
    let w := mm (fp - 1) in
    if frame_type w =? t_scripted then
      let fn := function_id w in
      match code cx fn with
      | None => Got (ShScripted cx fn 0)
      | Some c =>
        if pc =? 0 then Got (ShScripted cx fn fn)
        else
          match find_cip fn c pc with
          | Got p => Got (ShScripted cx fn p)
          | AssertFails => AssertFails
          | OutOfFuel => OutOfFuel
          end
      end
    else if frame_type w =? t_exit then
      let v := u64 (function_id w) in
      if exit_type v =? x_native then Got (ShNative cx (u32 (exit_payload v)))
      else Got (ShInternal cx)
    else Got (ShInternal cx)
  end.

(* A user of the iterator: for (; !iter.Done(); iter.Next()). *)
Fixpoint walk (fuel : nat) (code : codebase) (mm : Z -> Z) (it : iter) : got (list shown) :=
  match it_cursor it with
  | None => Got []
  | Some c =>
    match fuel with
    | O => OutOfFuel
    | S f =>
      match describe code mm c with
      | Got s =>
        match next mm it with
        | Got it' =>
          match walk f code mm it' with
          | Got l => Got (s :: l)
          | AssertFails => AssertFails
          | OutOfFuel => OutOfFuel
          end
        | AssertFails => AssertFails
        | OutOfFuel => OutOfFuel
        end
      | AssertFails => AssertFails
      | OutOfFuel => OutOfFuel
      end
    end
  end.

Definition listing (fuel : nat) (code : codebase) (m : mach) : got (list shown) :=
  match reset m with
  | Got it => walk fuel code (mem m) it
  | AssertFails => AssertFails
  | OutOfFuel => OutOfFuel
  end.

(* CompilerBase::find_entry_fp (jit.cpp:303-316): [fp] is the variable of that
   name, [cur] the frame the iterator is at. *)
Fixpoint entry_loop (fuel : nat) (mm : Z -> Z) (cur fp : Z) : got Z :=
  if frame_type (mm (cur - 1)) =? t_entry then
    if fp =? 0 then AssertFails else Got fp
  else
    match fuel with
    | O => OutOfFuel
    | S f => entry_loop f mm (mm cur) (mm cur)
    end.

Definition find_entry_fp (fuel : nat) (m : mach) : got Z :=
  match jit_start (mem m) 0 (exit_fp m) with
  | Got _ => entry_loop fuel (mem m) (exit_fp m) 0
  | AssertFails => AssertFails
  | OutOfFuel => OutOfFuel
  end.

(* ---- what can happen ---- *)

(* A place in compiled code a call is made from: [s_pc] is the address the
   call returns to, [s_cip] the instruction of the script it is made for. *)
Record site : Type := Site { s_pc : Z; s_cip : Z }.

(* What host code, compiled code and interpreted code do between entry and
   return, as far as frames are concerned.  Words the host or a stub pushes
   are arbitrary. *)
Inductive hrun : Type :=
| HEnd
| HTrace (k : hrun)                    (* the frames are listed *)
| HJit (cx fn : Z) (ws : list Z) (ret ret' : Z) (regs : list Z) (b : jrun) (k : hrun)
                                       (* Environment::Invoke of a compiled method *)
| HInt (cx fn cip : Z) (b : irun) (k : hrun)
                                       (* Environment::Invoke of another *)
with jrun : Type :=
| JRet                                 (* RETN *)
| JThrow (s : site)                    (* an error has been reported *)
| JCall (s : site) (fn : Z) (b k : jrun)
| JNat (s : site) (idx : Z) (ws : list Z) (h : hrun) (k : jrun)
| JHelp (s : site) (ws : list Z) (h : hrun) (k : jrun)
                                       (* helpers called from out of line code:
                                          error reports, thunks, the debugger *)
| JInit (s : site) (ws : list Z) (h : hrun) (k : jrun)
                                       (* INITARRAY of several dimensions *)
with irun : Type :=
| IRet
| IAt (cip : Z) (k : irun)             (* goes on to that instruction *)
| IHost (h : hrun) (k : irun)          (* host code run by an instruction *)
| INat (idx : Z) (h : hrun) (k : irun)
| ICall (fn cip : Z) (b k : irun).

Scheme hrun_mut := Induction for hrun Sort Prop
with jrun_mut := Induction for jrun Sort Prop
with irun_mut := Induction for irun Sort Prop.
Combined Scheme run_mut from hrun_mut, jrun_mut, irun_mut.

(* Words the invoke stub keeps between the frame word and the callee
   (code-stubs-x64.cpp:44-49): five registers on this platform. *)
Definition kSavedRegs := 5.

(* Environment::enterInvoke with the constructor of JitInvokeFrame; its
   destructor (stack-frames.cpp:33-44, 67-74; environment.cpp:503-518). *)
Definition enter_jit (cx : Z) (m : mach) : mach :=
  set_top (IvJit cx (exit_fp m) :: top m) m.
Definition leave_jit (m : mach) : mach :=
  match top m with
  | IvJit _ prev :: l => set_top l (set_exit prev m)
  | _ => m
  end.

(* InterpInvokeFrame (stack-frames.cpp:46-65); the reader keeps its
   instruction where the frame sees it. *)
Definition enter_int (cx fn cip : Z) (m : mach) : mach :=
  set_top (IvInt cx fn cip (-1) :: top m) m.
Definition leave_int (m : mach) : mach := set_top (tl (top m)) m.
Definition set_native (n : Z) (m : mach) : mach :=
  match top m with
  | IvInt cx me ci _ :: l => set_top (IvInt cx me ci n :: l) m
  | _ => m
  end.
Definition set_cip (c : Z) (m : mach) : mach :=
  match top m with
  | IvInt cx me _ na :: l => set_top (IvInt cx me c na :: l) m
  | _ => m
  end.

(* Compiler::emitPrologue (jit_x64.cpp:41-49): the frame and one word that is
   not written. *)
Definition prologue (fn : Z) (m : mach) : mach := drop (-1) (enterFrame t_scripted fn m).

(* The invoke stub up to the call, and from there (code-stubs-x64.cpp:32-122).
   [regs]: the registers and whatever else is pushed. *)
Definition stub_in (ret ret' : Z) (regs : list Z) (m : mach) : mach :=
  push ret' (push_all regs (enterFrame t_entry 0 (push ret m))).
Definition stub_out (m : mach) : mach :=
  drop 1 (leaveFrame (drop kSavedRegs (set_rsp (rbp m - 1 - kSavedRegs) m))).

Definition outcome := got (list shown).

(* Results: [Some (returned, machine, listings)]; [None] if an assertion of
   find_entry_fp fails or its fuel runs out. *)
Fixpoint hgo (fuel : nat) (code : codebase) (h : hrun) (m : mach) {struct h}
  : option (mach * list outcome) :=
  match h with
  | HEnd => Some (m, [])
  | HTrace k =>
    match hgo fuel code k m with
    | Some (m', os) => Some (m', listing fuel code m :: os)
    | None => None
    end
  | HJit cx fn ws ret ret' regs b k =>
    match jgo fuel code b
            (prologue fn (stub_in ret ret' regs (push_all ws (enter_jit cx m)))) with
    | Some (_, m1, os) =>
      match hgo fuel code k (leave_jit (drop (Z.of_nat (length ws)) (stub_out m1))) with
      | Some (m', os') => Some (m', os ++ os')
      | None => None
      end
    | None => None
    end
  | HInt cx fn cip b k =>
    match igo fuel code b (enter_int cx fn cip m) with
    | Some (m1, os) =>
      match hgo fuel code k (leave_int m1) with
      | Some (m', os') => Some (m', os ++ os')
      | None => None
      end
    | None => None
    end
  end
with jgo (fuel : nat) (code : codebase) (b : jrun) (m : mach) {struct b}
  : option (bool * mach * list outcome) :=
  match b with
  (* visitRETN (jit_x64.cpp:392-396). *)
  | JRet => Some (true, drop 1 (leaveFrame (drop 1 m)), [])
  (* return_reported_error_, return_to_invoke (jit_x64.cpp:117-136). *)
  | JThrow s =>
    let m1 := enterExitFrame x_helper 0 (push (s_pc s) m) in
    match find_entry_fp fuel m1 with
    | Got fp => Some (false, set_rbp fp (leaveFrame m1), [])
    | AssertFails => None
    | OutOfFuel => None
    end
  (* visitCALL (jit_x64.cpp:399-414). *)
  | JCall s fn c k =>
    match jgo fuel code c (prologue fn (push (s_pc s) m)) with
    | Some (true, m1, os) =>
      match jgo fuel code k m1 with
      | Some (r, m', os') => Some (r, m', os ++ os')
      | None => None
      end
    | Some (false, m1, os) => Some (false, m1, os)
    | None => None
    end
  (* emitLegacyNativeCall (jit_x64.cpp:782-845). *)
  | JNat s idx ws h k =>
    match hgo fuel code h (push_all ws (pushInlineExitFrame x_native idx (s_pc s) m)) with
    | Some (m1, os) =>
      match jgo fuel code k (drop 3 (drop (Z.of_nat (length ws)) m1)) with
      | Some (r, m', os') => Some (r, m', os ++ os')
      | None => None
      end
    | None => None
    end
  (* emitErrorHandlers, emitOutOfBoundsError, emitDebugBreakHandler,
     emitCallThunk (jit_x64.cpp:87-180, 416-437). *)
  | JHelp s ws h k =>
    match hgo fuel code h (push_all ws (enterExitFrame x_helper 0 (push (s_pc s) m))) with
    | Some (m1, os) =>
      match jgo fuel code k (drop 1 (leaveFrame (drop (Z.of_nat (length ws)) m1))) with
      | Some (r, m', os') => Some (r, m', os ++ os')
      | None => None
      end
    | None => None
    end
  (* visitINITARRAY (jit_x64.cpp:1140-1174): no address is pushed. *)
  | JInit s ws h k =>
    match hgo fuel code h (push_all ws (enterExitFrame x_helper 0 m)) with
    | Some (m1, os) =>
      match jgo fuel code k (leaveFrame (drop (Z.of_nat (length ws)) m1)) with
      | Some (r, m', os') => Some (r, m', os ++ os')
      | None => None
      end
    | None => None
    end
  end
with igo (fuel : nat) (code : codebase) (b : irun) (m : mach) {struct b}
  : option (mach * list outcome) :=
  match b with
  | IRet => Some (m, [])
  | IAt c k => igo fuel code k (set_cip c m)
  | IHost h k =>
    match hgo fuel code h m with
    | Some (m1, os) =>
      match igo fuel code k m1 with
      | Some (m', os') => Some (m', os ++ os')
      | None => None
      end
    | None => None
    end
  (* Interpreter::invokeNative (interpreter.cpp:90-110). *)
  | INat idx h k =>
    match hgo fuel code h (set_native (wrap32 idx) m) with
    | Some (m1, os) =>
      match igo fuel code k (set_native (-1) m1) with
      | Some (m', os') => Some (m', os ++ os')
      | None => None
      end
    | None => None
    end
  (* Interpreter::visitCALL (interpreter.cpp:166-186). *)
  | ICall fn c b k =>
    let cx := match top m with IvInt cx _ _ _ :: _ => cx | _ => 0 end in
    match igo fuel code b (enter_int cx fn c m) with
    | Some (m1, os) =>
      match igo fuel code k (leave_int m1) with
      | Some (m', os') => Some (m', os ++ os')
      | None => None
      end
    | None => None
    end
  end.

(* ---- how the table of positions comes about ---- *)

(* What the code of one instruction holds that concerns the table; sizes of
   machine code are arbitrary. *)
Inductive eact : Type :=
| ECode (n : Z)
| ECallSite (n : Z)   (* a call followed by emitCipMapping(op_cip_): CALL to
                         compiled code, natives, BREAK *)
| EThunkCall (n : Z)  (* CALL through a thunk (visitCALL) *)
| EErr (n : Z)        (* jumpOnError (jit_x64.cpp:1647-1652) *)
| EBounds (n : Z)     (* visitBOUNDS *)
| EBack (n : Z).      (* a jump backward (jit.cpp:330-349) *)

Record eop : Type := EOp { e_cip : Z; e_acts : list eact }.

(* Why an entry of the table was made. *)
Inductive reason : Type :=
| RCall | RBounds | RError | RTimeout
| RPrologue           (* no room on the stack for the function *)
| RThunkFailed        (* the callee of a CALL could not be compiled *)
| RDebugger.          (* the debugger returned an error *)

(* An entry, with the instruction it is an entry for ([en_owner], not part of
   the program; for RDebugger there is none in particular: 0).  Instructions
   are addresses here, as in the code. *)
Record entry : Type := Entry {
  en_pc : Z;
  en_cip : Z;
  en_owner : Z;
  en_why : reason
}.

(* ErrorThunk: the cip it keeps, and whom it is for. *)
Record pending : Type := Pending { p_cip : Z; p_owner : Z; p_why : reason }.

Record emitter : Type := Emitter {
  em_pc : Z;
  em_map : list entry;         (* latest first *)
  em_op : Z;                   (* op_cip_ *)
  em_thunks : list Z;          (* call_thunks_, with their instructions *)
  em_bounds : list Z;          (* bounds_errors_ *)
  em_errs : list pending;      (* error_thunks_ *)
  em_backs : list Z            (* backward_jumps_ *)
}.

Definition em_code (n : Z) (e : emitter) : emitter :=
  Emitter (em_pc e + n) (em_map e) (em_op e) (em_thunks e) (em_bounds e) (em_errs e) (em_backs e).
Definition em_entry (c o : Z) (w : reason) (e : emitter) : emitter :=
  Emitter (em_pc e) (Entry (em_pc e) c o w :: em_map e) (em_op e) (em_thunks e) (em_bounds e)
    (em_errs e) (em_backs e).
(* jumpOnError: the thunk keeps op_cip_. *)
Definition em_err (o : Z) (w : reason) (e : emitter) : emitter :=
  Emitter (em_pc e) (em_map e) (em_op e) (em_thunks e) (em_bounds e)
    (em_errs e ++ [Pending (em_op e) o w]) (em_backs e).

Definition em_act (e : emitter) (a : eact) : emitter :=
  match a with
  | ECode n => em_code n e
  | ECallSite n => em_entry (em_op e) (em_op e) RCall (em_code n e)
  | EThunkCall n =>
    let e := em_entry (em_op e) (em_op e) RCall (em_code n e) in
    Emitter (em_pc e) (em_map e) (em_op e) (em_thunks e ++ [em_op e]) (em_bounds e) (em_errs e)
      (em_backs e)
  | EErr n => em_err (em_op e) RError (em_code n e)
  | EBounds n =>
    let e := em_code n e in
    Emitter (em_pc e) (em_map e) (em_op e) (em_thunks e) (em_bounds e ++ [em_op e]) (em_errs e)
      (em_backs e)
  | EBack n =>
    let e := em_code n e in
    Emitter (em_pc e) (em_map e) (em_op e) (em_thunks e) (em_bounds e) (em_errs e)
      (em_backs e ++ [em_op e])
  end.

Definition em_op1 (e : emitter) (o : eop) : emitter :=
  fold_left em_act (e_acts o)
    (Emitter (em_pc e) (em_map e) (e_cip o) (em_thunks e) (em_bounds e) (em_errs e) (em_backs e)).

(* What is emitted after the body (jit.cpp:150-178), with the sizes of the
   pieces: [n] positive numbers. *)
Record sizes : Type := Sizes { z_debug : Z; z_thunk : Z; z_call : Z; z_rest : Z }.

Definition em_thunk (z : sizes) (e : emitter) (o : Z) : emitter :=
  em_err o RThunkFailed (em_code (z_thunk z) e).
Definition em_bound (z : sizes) (e : emitter) (o : Z) : emitter :=
  em_code (z_rest z) (em_entry o o RBounds (em_code (z_call z) e)).
Definition em_errthunk (z : sizes) (e : emitter) (p : pending) : emitter :=
  em_entry (p_cip p) (p_owner p) (p_why p) (em_code (z_call z) e).
Definition em_timeout (z : sizes) (e : emitter) (o : Z) : emitter :=
  em_entry o o RTimeout (em_code (z_call z) e).

(* CompilerBase::emit (jit.cpp:71-212).  op_cip_ is null at first
   (jit.cpp:49); [start] is the address of the function's first instruction,
   [pro] the size of the prologue, which ends in a check. *)
Definition emit_table (z : sizes) (start pro : Z) (ops : list eop) : list entry :=
  let e := em_err start RPrologue (Emitter pro [] 0 [] [] [] []) in
  let e := fold_left em_op1 ops e in
  let e := em_err 0 RDebugger (em_code (z_debug z) e) in
  let e := fold_left (em_thunk z) (em_thunks e) e in
  let e := fold_left (em_bound z) (em_bounds e) e in
  let e := fold_left (em_errthunk z) (em_errs e) e in
  let e := fold_left (em_timeout z) (em_backs e) e in
  rev (em_map e).

(* CipMapEntry as emitCipMapping makes it (jit.h:99-104) and the table of the
   compiled function (jit.cpp:206-210): offsets of 32 bits. *)
Definition cip_map (z : sizes) (start pro : Z) (ops : list eop) : list (Z * Z) :=
  map (fun x => (en_pc x, u32 (en_cip x - start))) (emit_table z start pro ops).
