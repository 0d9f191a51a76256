(* Vocabulary for the memory properties C01-C03, independent of how the runtime checks things. *)
From Verif Require Import Base Rt_Model.

(* The shape of a plugin's memory block once it is loaded: static data at the bottom, at least
   the minimum heap above it, the stack base one cell below the top. *)
Record layout (s : rt) : Prop := {
  lay_data : 0 <= data_size s;
  lay_size : data_size s + 16384 <= mem_size s;
  lay_max : mem_size s + 128 <= two31;   (* below 2 GiB, with room for the margins *)
  lay_stp : stp s = mem_size s - 4
}.

(* Two states of the same plugin: same block, same limits. *)
Record same_plugin (s s' : rt) : Prop := {
  sp_size : mem_size s' = mem_size s;
  sp_data : data_size s' = data_size s;
  sp_stp : stp s' = stp s;
  sp_hs : heap_scopes s' = heap_scopes s;
  sp_da : direct_arrays s' = direct_arrays s
}.

(* The unused gap between heap top and stack top. *)
Definition in_gap (s : rt) (a : Z) : Prop := hp s <= a < sp s.

(* Bytes [a, a+n) all belong to the plugin's block. *)
Definition inside (s : rt) (a n : Z) : Prop := 0 <= a /\ a + n <= mem_size s.

(* An address a script may dereference: in the block, below the stack base, not in the gap. *)
Definition script_address (s : rt) (a : Z) : Prop := 0 <= a < stp s /\ ~ in_gap s a.

(* Everything outside [a, a+n) is the same in both states. *)
Definition unchanged_outside (s s' : rt) (a n : Z) : Prop :=
  forall x, x < a \/ a + n <= x -> mem s' x = mem s x.

(* C02: the heap top is at or above the static data, the stack top at or below the stack base,
   and they do not cross. *)
Record pointers_ok (s : rt) : Prop := {
  po_heap : data_size s <= hp s;
  po_cross : hp s <= sp s;
  po_stack : sp s <= stp s
}.

(* What memory safety alone needs of the pointers: they lie in the block. *)
Record pointers_inside (s : rt) : Prop := {
  pi_hp : 0 <= hp s <= stp s;
  pi_sp : 0 <= sp s < mem_size s;
  pi_frm : is_i32 (frm s);
  pi_scope : is_i32 (hp_scope s)
}.

(* Only the memory, or nothing at all, changed besides the named pointers. *)
Definition regs_eq (s s' : rt) : Prop :=
  hp s' = hp s /\ sp s' = sp s /\ frm s' = frm s /\ hp_scope s' = hp_scope s.

(* A stack or heap amount the 32-bit pointer arithmetic can add without wrapping. *)
Definition amount_ok (s : rt) (n : Z) : Prop := is_i32 n /\ n + mem_size s + 64 < two31.

(* ---- Histories (C02, C03) ---- *)

(* The operations a script can perform on its stack and heap. *)
Inductive op :=
| OPush (v : Z) | OPop | OStack (n : Z) | OHeap (n : Z)
| OEnter | OLeave                    (* function frame *)
| OScopeIn | OScopeOut               (* heap scope *)
| OTrackIn (n : Z) | OTrackOut       (* legacy heap tracker *)
| OStore (a v : Z) | OLoad (a : Z).  (* script memory access *)

Definition perform (o : op) : RM unit :=
  match o with
  | OPush v => pushStack v
  | OPop => popStack;;; ret tt
  | OStack n => addStack n
  | OHeap n => heapAlloc n;;; ret tt
  | OEnter => pushAmxFrame
  | OLeave => popAmxFrame
  | OScopeIn => enterHeapScope
  | OScopeOut => leaveHeapScope
  | OTrackIn n => pushTracker n
  | OTrackOut => popTrackerAndSetHeap
  | OStore a v => setCellValue a v
  | OLoad a => getCellValue a;;; ret tt
  end.

(* What is currently open, innermost first: heap scopes and function frames.
   [Scope h old]: entered when the heap top was [h] and the current scope was [old].
   [Frame f caller h old n]: frame at [f], entered from frame [caller] with heap top [h], scope
   [old] and [n] arguments declared on the stack. *)
Inductive mark :=
| Scope (h old : Z)
| Frame (f caller h old n : Z).

(* Cells the runtime uses for its own bookkeeping. *)
Definition book (k : mark) : list Z :=
  match k with
  | Scope h _ => [h]
  | Frame f _ h _ _ => [h; f; f + 4; f + 8]
  end.
Definition books (g : list mark) : list Z := flat_map book g.

(* How far up a pop may go / how far down a heap release may go. *)
Fixpoint stack_limit (top : Z) (g : list mark) : Z :=
  match g with [] => top | Scope _ _ :: g' => stack_limit top g' | Frame f _ _ _ _ :: _ => f end.
Definition heap_limit (bottom : Z) (g : list mark) : Z :=
  match g with [] => bottom | Scope h _ :: _ | Frame _ _ h _ _ :: _ => h + 4 end.

Fixpoint drop_scopes (g : list mark) : list mark :=
  match g with Scope _ _ :: g' => drop_scopes g' | _ => g end.

(* The discipline: releases stay within the innermost open construct, scripts do not overwrite
   bookkeeping cells, sizes are far from 2^31, a frame is entered with an argument count on top
   of the stack and left only if it is open. *)
Definition disciplined (s : rt) (g : list mark) (o : op) : Prop :=
  match o with
  | OPush _ | OLoad _ | OScopeIn => True
  | OPop => sp s + 4 <= stack_limit (stp s) g
  | OStack n => is_i32 n /\ n + mem_size s + 64 < two31 /\ sp s + n <= stack_limit (stp s) g
  | OHeap n => is_i32 n /\ n + mem_size s + 64 < two31 /\ heap_limit (data_size s) g <= hp s + n
  | OEnter => let n := load32 (mem s) (sp s) in
              0 <= n /\ sp s + 4 + 4 * n <= stack_limit (stp s) g
  | OLeave => exists f c h old n g', drop_scopes g = Frame f c h old n :: g'
  | OScopeOut => exists h old g', g = Scope h old :: g'
  | OTrackIn _ => heap_scopes s = false
  | OTrackOut => heap_limit (data_size s) g <= hp s - 4 /\
                 (0 <= load32 (mem s) (hp s - 4) ->
                  heap_limit (data_size s) g <= hp s - 4 - load32 (mem s) (hp s - 4))
  | OStore a _ => Forall (fun c => a + 4 <= c \/ c + 4 <= a) (books g)
  end.

Definition after (s : rt) (g : list mark) (o : op) : list mark :=
  match o with
  | OEnter => Frame (sp s - 8) (frm s) (hp s) (hp_scope s) (load32 (mem s) (sp s)) :: g
  | OScopeIn => Scope (hp s) (hp_scope s) :: g
  | OLeave => tl (drop_scopes g)
  | OScopeOut => tl g
  | _ => g
  end.

(* A plugin as loaded: nothing pushed, nothing allocated. *)
Definition fresh (s : rt) : Prop :=
  layout s /\ hp s = data_size s /\ sp s = stp s /\ frm s = sp s /\ hp_scope s = -1.

Inductive history : rt -> list mark -> Prop :=
| h_start s : fresh s -> history s []
| h_step s g o s' : history s g -> disciplined s g o -> perform o s = Ok tt s' ->
    history s' (after s g o).

(* A list of operations in a row, stopping at the first error. *)
Fixpoint perform_all (os : list op) : RM unit :=
  match os with [] => ret tt | o :: os' => perform o;;; perform_all os' end.

(* Operations that consist of a single check followed by a single update. *)
Definition simple_op (o : op) : Prop :=
  match o with
  | OPush _ | OPop | OStack _ | OHeap _ | OScopeIn | OTrackIn _ | OStore _ _ | OLoad _ => True
  | _ => False
  end.

Definition bytes_kept (s s' : rt) (a n : Z) : Prop := forall x, a <= x < a + n -> mem s' x = mem s x.

(* What the basic operations do, in unbounded integers: the error when there is no room (a script
   allocation leaves a margin of 64 bytes), the effect otherwise. *)
Definition expected (s : rt) (o : op) : option (res rt unit) :=
  match o with
  | OPush v => Some (if sp s - 4 <=? hp s then Fail STACKLOW s
                     else Ok tt (set_mem (store32 (mem s) (sp s - 4) v) (set_sp (sp s - 4) s)))
  | OPop => Some (if stp s <=? sp s then Fail STACKMIN s else Ok tt (set_sp (sp s + 4) s))
  | OStack n => Some (if (n <? 0) && (sp s + n <? hp s + 64) then Fail STACKLOW s
                      else if (0 <=? n) && (stp s <? sp s + n) then Fail STACKMIN s
                      else Ok tt (set_sp (sp s + n) s))
  | OHeap n => Some (if (n <? 0) && (hp s + n <? data_size s) then Fail HEAPMIN s
                     else if (0 <=? n) && (sp s <? hp s + n + 64) then Fail HEAPLOW s
                     else Ok tt (set_hp (hp s + n) s))
  | OScopeIn => Some (if sp s <? hp s + 4 + 64 then Fail HEAPLOW s
                      else Ok tt (set_mem (store32 (mem s) (hp s) (hp_scope s))
                                    (set_hp_scope (hp s) (set_hp (hp s + 4) s))))
  | OTrackIn n => Some (if (n <? 0) || (sp s - hp s <? 64) then Fail TRACKER_BOUNDS s
                        else Ok tt (set_hp (hp s + 4) (set_mem (store32 (mem s) (hp s) n) s)))
  | _ => None
  end.
