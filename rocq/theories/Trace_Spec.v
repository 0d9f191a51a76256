(* What a listing of frames has to show, told from what happens alone. *)
From Coq Require Import ZArith List Bool.
From Verif Require Import Base Trace_Model.
Import ListNotations.
Local Open Scope Z_scope.

(* A function that has been entered and not left, with the instruction it is
   at; or a native. *)
Inductive act : Type :=
| ActFun (cx fn cip : Z)
| ActNat (cx idx : Z).

(* The listings host code, compiled code and interpreted code take, in order;
   [acc] is what is active around it, innermost first.  With compiled code,
   whether it returned. *)
Fixpoint htraces (acc : list act) (h : hrun) : list (list act) :=
  match h with
  | HEnd => []
  | HTrace k => acc :: htraces acc k
  | HJit cx fn _ _ _ _ b k => fst (jtraces cx fn acc b) ++ htraces acc k
  | HInt cx fn cip b k => itraces cx fn cip acc b ++ htraces acc k
  end
with jtraces (cx fn : Z) (acc : list act) (b : jrun) : list (list act) * bool :=
  match b with
  | JRet => ([], true)
  | JThrow _ => ([], false)
  | JCall s fn' c k =>
    let r := jtraces cx fn' (ActFun cx fn (s_cip s) :: acc) c in
    if snd r then (fst r ++ fst (jtraces cx fn acc k), snd (jtraces cx fn acc k))
    else (fst r, false)
  | JNat s idx _ h k =>
    (htraces (ActNat cx idx :: ActFun cx fn (s_cip s) :: acc) h ++ fst (jtraces cx fn acc k),
     snd (jtraces cx fn acc k))
  | JHelp s _ h k | JInit s _ h k =>
    (htraces (ActFun cx fn (s_cip s) :: acc) h ++ fst (jtraces cx fn acc k),
     snd (jtraces cx fn acc k))
  end
with itraces (cx fn cip : Z) (acc : list act) (b : irun) : list (list act) :=
  match b with
  | IRet => []
  | IAt c k => itraces cx fn c acc k
  | IHost h k => htraces (ActFun cx fn cip :: acc) h ++ itraces cx fn cip acc k
  | INat idx h k =>
    htraces (ActNat cx idx :: ActFun cx fn cip :: acc) h ++ itraces cx fn cip acc k
  | ICall fn' c b k =>
    itraces cx fn' c (ActFun cx fn cip :: acc) b ++ itraces cx fn cip acc k
  end.

(* The functions and natives among the frames shown. *)
Fixpoint active (l : list shown) : list act :=
  match l with
  | [] => []
  | ShScripted cx fn cip :: l => ActFun cx fn cip :: active l
  | ShNative cx idx :: l => ActNat cx idx :: active l
  | ShInternal _ :: l => active l
  end.

(* A listing that came to its end and shows these. *)
Definition shows (o : outcome) (l : list act) : Prop := exists s, o = Got s /\ active s = l.

(* The table of a function leads from the address a call returns to, to the
   instruction the call was made for, and lists every address once. *)
Definition recorded (code : codebase) (cx fn : Z) (s : site) : Prop :=
  exists c, code cx fn = Some c /\
    0 < c_entry c <= s_pc s /\ s_pc s - c_entry c <= c_size c < two32 /\
    In (s_pc s - c_entry c, s_cip s - fn) (c_map c) /\ NoDup (map fst (c_map c)) /\
    0 <= s_cip s < two32.

(* What is asked of a run: calls are made from recorded places; functions and
   natives have numbers of a size; addresses are not null; unless [ini],
   the helper that initialises arrays lists nothing. *)
Fixpoint hproper (ini : bool) (code : codebase) (h : hrun) : Prop :=
  match h with
  | HEnd => True
  | HTrace k => hproper ini code k
  | HJit cx fn ws ret ret' regs b k =>
    0 <= fn < two31 /\ 5 <= Z.of_nat (length regs) /\ jproper ini code cx fn b /\ hproper ini code k
  | HInt cx fn cip b k => iproper ini code b /\ hproper ini code k
  end
with jproper (ini : bool) (code : codebase) (cx fn : Z) (b : jrun) : Prop :=
  match b with
  | JRet => True
  | JThrow s => s_pc s <> 0
  | JCall s fn' c k =>
    recorded code cx fn s /\ 0 <= fn' < two31 /\ jproper ini code cx fn' c /\ jproper ini code cx fn k
  | JNat s idx ws h k =>
    recorded code cx fn s /\ 0 <= idx < 2 ^ 28 /\ hproper ini code h /\ jproper ini code cx fn k
  | JHelp s ws h k => recorded code cx fn s /\ hproper ini code h /\ jproper ini code cx fn k
  | JInit s ws h k =>
    (if ini then recorded code cx fn s /\ hproper ini code h else h = HEnd) /\
    jproper ini code cx fn k
  end
with iproper (ini : bool) (code : codebase) (b : irun) : Prop :=
  match b with
  | IRet => True
  | IAt _ k => iproper ini code k
  | IHost h k => hproper ini code h /\ iproper ini code k
  | INat idx h k => 0 <= idx < two31 /\ hproper ini code h /\ iproper ini code k
  | ICall _ _ b k => iproper ini code b /\ iproper ini code k
  end.

(* At most how many words a run can put on the stack. *)
Fixpoint hwords (h : hrun) : Z :=
  match h with
  | HEnd => 0
  | HTrace k => hwords k
  | HJit _ _ ws _ _ regs b k =>
    Z.of_nat (length ws) + Z.of_nat (length regs) + 7 + jwords b + hwords k
  | HInt _ _ _ b k => iwords b + hwords k
  end
with jwords (b : jrun) : Z :=
  match b with
  | JRet => 0
  | JThrow _ => 3
  | JCall _ _ c k => 4 + jwords c + jwords k
  | JNat _ _ ws h k | JHelp _ ws h k | JInit _ ws h k =>
    3 + Z.of_nat (length ws) + hwords h + jwords k
  end
with iwords (b : irun) : Z :=
  match b with
  | IRet => 0
  | IAt _ k => iwords k
  | IHost h k => hwords h + iwords k
  | INat _ h k => hwords h + iwords k
  | ICall _ _ b k => iwords b + iwords k
  end.

(* Nothing of what was there is touched. *)
Definition intact (m m' : mach) : Prop :=
  rsp m' = rsp m /\ rbp m' = rbp m /\ exit_fp m' = exit_fp m /\ top m' = top m /\
  forall a, rsp m <= a -> mem m' a = mem m a.

(* Entries of the table that are made for the instruction at hand. *)
Definition direct (r : reason) : bool :=
  match r with
  | RCall | RBounds | RError | RTimeout => true
  | RPrologue | RThunkFailed | RDebugger => false
  end.

(* Every piece of machine code has a size. *)
Definition act_size (a : eact) : Z :=
  match a with
  | ECode n | ECallSite n | EThunkCall n | EErr n | EBounds n | EBack n => n
  end.
Definition sized (z : sizes) (pro : Z) (ops : list eop) : Prop :=
  0 < z_debug z /\ 0 < z_thunk z /\ 0 < z_call z /\ 0 < z_rest z /\ 0 < pro /\
  forall o a, In o ops -> In a (e_acts o) -> 0 < act_size a.

Fixpoint ascending (l : list Z) : Prop :=
  match l with
  | [] => True
  | x :: l => (forall y, In y l -> x < y) /\ ascending l
  end.
