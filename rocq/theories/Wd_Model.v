(* The watchdog: /repo/vm/watchdog_timer.cpp (whole file), the frame ids of environment.cpp:502-520, and the patching of
   loop edges, environment.cpp:229-276.  Two threads, the main one and the watchdog's, interleaved step by step; memory
   is taken to be sequentially consistent (frame_id_, top_, timedout_ and the patched displacements are plain variables
   read and written by both threads).  mutex_ is held by the watchdog except while it waits; the lock of the
   environment is held across steps only by the watchdog, while it patches. *)
From Verif Require Import Base.

(* A compiled function's loop edges: for each, the displacement in the code and LoopEdge::disp32
   (compiled-function.h:29-36); [at_link]: what they were when it was linked. *)
Definition edge := (Z * Z)%type.
Record fn := mkFn { at_link : list edge; now : list edge }.
(* SwapLoopEdge, PatchAllJumpsForTimeout, UnpatchAllJumpsFromTimeout (environment.cpp:228-276): both swap every edge. *)
Definition swap_edge (e : edge) : edge := (snd e, fst e).
Definition swap_all (fs : list fn) : list fn := map (fun f => mkFn (at_link f) (map swap_edge (now f))) fs.

(* Where the watchdog thread is in Run (watchdog_timer.cpp:75-144). *)
Inductive wpc :=
| WInit                (* before 76 *)
| WWait                (* in wait_for, 82 *)
| WReadId              (* woken by the time-out, about to read the frame id, 98 *)
| WReadTop (id : Z)    (* about to read whether code is running, 99 *)
| WFire                (* about to take the environment's lock, 114 *)
| WPatch               (* holding it, timedout_ set, about to patch, 124 *)
| WPark                (* about to wait, 129 *)
| WHeld                (* in wait, 129 *)
| WWoke                (* wait has returned, 131 *)
| WDone.
(* Where the main thread is. *)
Inductive mpc :=
| MRun
| MEntering            (* enterInvoke, between its two assignments (environment.cpp:503-507) *)
| MUnpatch             (* NotifyTimeoutReceived, before 153 *)
| MClear               (* before 156 *)
| MNotify              (* before 159 *)
| MJoin                (* Shutdown, in join, 70 *)
| MGone.
Record wd := mkWd {
  frame_id : Z; depth : nat;              (* Environment::frame_id_; how many invocations are on the stack (top_) *)
  funs : list fn; timedout : bool; ignoring : bool; terminate : bool;
  last : Z; second : bool;                (* last_frame_id_, second_timeout_ *)
  w : wpc; m : mpc }.

Definition word (n : Z) : Z := n mod 2 ^ 64.
Inductive event :=
(* the watchdog *)
| TStart | TTimeout | TWake | TReadId | TReadTop | TFire | TPatch | TPark | TSpurious | TResume
(* the main thread *)
| EEnter | ETop | ELeave | EPoll | EEdge (i j : nat) | EUnpatch | EClear | ENotify | ELink (es : list edge) | EUnload (i : nat)
| EIgnore (b : bool) | EShutdown | EJoin.

Definition set_w (p : wpc) (s : wd) : wd :=
  mkWd (frame_id s) (depth s) (funs s) (timedout s) (ignoring s) (terminate s) (last s) (second s) p (m s).
Definition set_m (p : mpc) (s : wd) : wd :=
  mkWd (frame_id s) (depth s) (funs s) (timedout s) (ignoring s) (terminate s) (last s) (second s) (w s) p.
Definition set_funs (fs : list fn) (s : wd) : wd :=
  mkWd (frame_id s) (depth s) fs (timedout s) (ignoring s) (terminate s) (last s) (second s) (w s) (m s).
Definition set_flag (b : bool) (s : wd) : wd :=
  mkWd (frame_id s) (depth s) (funs s) b (ignoring s) (terminate s) (last s) (second s) (w s) (m s).
Definition set_seen (l : Z) (b : bool) (s : wd) : wd :=
  mkWd (frame_id s) (depth s) (funs s) (timedout s) (ignoring s) (terminate s) l b (w s) (m s).
Definition set_frame (i : Z) (d : nat) (s : wd) : wd :=
  mkWd i d (funs s) (timedout s) (ignoring s) (terminate s) (last s) (second s) (w s) (m s).
Definition set_ignore (b : bool) (s : wd) : wd :=
  mkWd (frame_id s) (depth s) (funs s) (timedout s) b (terminate s) (last s) (second s) (w s) (m s).
Definition set_terminate (s : wd) : wd :=
  mkWd (frame_id s) (depth s) (funs s) (timedout s) (ignoring s) true (last s) (second s) (w s) (m s).

Definition loop_or_leave (s : wd) : wd := set_w (if terminate s then WDone else WWait) s.
(* mutex_ can be taken by the main thread. *)
Definition mutex_free (s : wd) : bool :=
  match w s with WInit | WWait | WHeld | WWoke | WDone => true | _ => false end.
(* The environment's lock can be taken by the main thread. *)
Definition env_free (s : wd) : bool := match w s with WPatch => false | _ => true end.
(* cv_.notify_all *)
Definition notify (s : wd) : wd := match w s with WHeld => set_w WWoke s | _ => s end.

(* [None]: the thread cannot take this step now. *)
Definition step (e : event) (s : wd) : option wd :=
  match e with
  | TStart => match w s with WInit => Some (loop_or_leave (set_seen (frame_id s) (second s) s)) | _ => None end       (* 76-81 *)
  | TTimeout => match w s with WWait => Some (set_w (if terminate s then WDone else WReadId) s) | _ => None end          (* 82-87 *)
  | TWake => match w s with WWait => Some (loop_or_leave s) | _ => None end                                           (* 82-87, notified or spurious *)
  | TReadId => match w s with WReadId => Some (set_w (WReadTop (frame_id s)) s) | _ => None end                       (* 98 *)
  | TReadTop =>                                                                                                       (* 99-110 *)
      match w s with
      | WReadTop id =>
          if negb (id =? last s) || (depth s =? 0)%nat || ignoring s then Some (loop_or_leave (set_seen id false s))
          else if negb (second s) then Some (loop_or_leave (set_seen (last s) true s))
          else Some (set_w WFire s)
      | _ => None
      end
  | TFire => match w s with WFire => Some (set_w WPatch (set_flag true s)) | _ => None end                            (* 112-119 *)
  | TPatch => match w s with WPatch => Some (set_w WPark (set_funs (swap_all (funs s)) s)) | _ => None end            (* 121-125 *)
  | TPark => match w s with WPark => Some (set_w WHeld s) | _ => None end                                             (* 129 *)
  | TSpurious => match w s with WHeld => Some (set_w WWoke s) | _ => None end                                         (* wait may return unasked *)
  | TResume => match w s with WWoke => Some (loop_or_leave (set_seen (word (last s - 1)) false s)) | _ => None end    (* 131-139 *)
  | EEnter => match m s with MRun => Some (set_m MEntering (set_frame (if (depth s =? 0)%nat then word (frame_id s + 1) else frame_id s) (depth s) s)) | _ => None end
  | ETop => match m s with MEntering => Some (set_m MRun (set_frame (frame_id s) (S (depth s)) s)) | _ => None end
  | ELeave => match m s, depth s with MRun, S d => Some (set_frame (frame_id s) d s) | _, _ => None end               (* environment.cpp:517-519 *)
  | EPoll => match m s with MRun => Some (set_m (if timedout s then MUnpatch else MRun) s) | _ => None end            (* HandleInterrupt, 164-168 *)
  | EEdge i j =>                                    (* JIT code takes a loop edge; InvokeReportTimeout, jit.cpp:323-330 *)
      match m s, nth_error (funs s) i with
      | MRun, Some f =>
          match nth_error (now f) j, nth_error (at_link f) j with
          | Some e, Some o => Some (set_m (if fst e =? fst o then MRun else MUnpatch) s)
          | _, _ => None
          end
      | _, _ => None
      end
  | EUnpatch => match m s with MUnpatch => if env_free s then Some (set_m MClear (set_funs (swap_all (funs s)) s)) else None | _ => None end  (* 151-154 *)
  | EClear => match m s with MClear => Some (set_m MNotify (set_flag false s)) | _ => None end                        (* 156 *)
  | ENotify => match m s with MNotify => if mutex_free s then Some (set_m MRun (notify s)) else None | _ => None end  (* 159-161 *)
  | ELink es => match m s with MRun => if env_free s then Some (set_funs (funs s ++ [mkFn es es]) s) else None | _ => None end  (* method-info.cpp:32-39 *)
  | EUnload i =>                                                                                     (* plugin-runtime.cpp:70-83, one function at a time *)
      match m s with MRun => if env_free s then Some (set_funs (firstn i (funs s) ++ skipn (S i) (funs s)) s) else None | _ => None end
  | EIgnore b => match m s with MRun => Some (set_ignore b s) | _ => None end                        (* debugging.cpp:47 *)
  | EShutdown => match m s with MRun => if mutex_free s then Some (set_m MJoin (notify (set_terminate s))) else None | _ => None end (* 60-69 *)
  | EJoin => match m s with MJoin => match w s with WDone => Some (set_m MGone s) | _ => None end | _ => None end     (* 70-71 *)
  end.
Fixpoint run (es : list event) (s : wd) : option wd :=
  match es with [] => Some s | e :: r => match step e s with Some s' => run r s' | None => None end end.
(* After Initialize (watchdog_timer.cpp:49-58): the thread is made, code may be running. *)
Definition start (id : Z) (d : nat) : wd := mkWd id d [] false false false 0 false WInit MRun.
