(* Model of the analyses of the control-flow graph: vm/control-flow.cpp computeOrdering,
   computeDominance, computeLoopHeaders and vm/control-flow.h Block::dominates, run by
   vm/graph-builder.cpp build.

   A block is its name; [succ] and [pred] are its successors_ and predecessors_ in order.  Fields of
   blocks are maps from names.  Ids are Z (no wrap-around: there are fewer than 2^32 blocks). *)
From Verif Require Import Base Rt_Model Array_Model Interp_Model Cfg_Model.

Section Graph.
Variable entry : Z.
Variable succ : Z -> list Z.
Variable pred : Z -> list Z.

(* vm/control-flow.cpp:80-107: the depth-first walk.  [work]: the stack of (block, successors not yet
   looked at), its back first; [post]: postordering, its last element first. *)
Fixpoint dfs (fuel : nat) (work : list (Z * list Z)) (visited post : list Z) : cres (list Z) :=
  match fuel with
  | O => CLoop
  | S f =>
    match work with
    | [] => CGood post
    | (b, []) :: w => dfs f w visited (b :: post)
    | (b, c :: rest) :: w =>
      if mem_z c visited then dfs f ((b, rest) :: w) visited post
      else match succ c with
           | [] => dfs f ((b, rest) :: w) (c :: visited) (c :: post)
           | ss => dfs f ((c, ss) :: (b, rest) :: w) (c :: visited) post
           end
    end
  end.

(* vm/control-flow.cpp:49-122 computeOrdering: blocks_ afterwards, i.e. reverse postorder. *)
Definition compute_ordering (fuel : nat) : cres (list Z) := dfs fuel [(entry, succ entry)] [] [].

(* The block's id: 1 for the first in reverse postorder, and so on (0 if it got none). *)
Fixpoint id_of (rpo : list Z) (b : Z) : Z :=
  match rpo with
  | [] => 0
  | x :: rest => if x =? b then 1 else match id_of rest b with 0 => 0 | k => k + 1 end
  end.

Section Dominance.
Variable rpo : list Z.
Notation id := (id_of rpo).

(* idom_, absent for nullptr. *)
Definition idoms := Z -> option Z.
Definition upd {A : Type} (m : Z -> A) (b : Z) (v : A) : Z -> A := fun x => if x =? b then v else m x.

(* vm/control-flow.cpp:129-141 IntersectDominators.  The two inner loops move the finger with the larger
   id up; distinct blocks with equal ids would loop for ever. *)
Fixpoint intersect (fuel : nat) (m : idoms) (f1 f2 : Z) : cres Z :=
  match fuel with
  | O => CLoop
  | S f =>
    if f1 =? f2 then CGood f1
    else if id f2 <? id f1 then match m f1 with Some x => intersect f m x f2 | None => CUndef UBMem end
    else if id f1 <? id f2 then match m f2 with Some x => intersect f m f1 x | None => CUndef UBMem end
    else CLoop
  end.

(* vm/control-flow.cpp:166-178: the candidate dominator from the predecessors that have one. *)
Fixpoint candidate (fuel : nat) (m : idoms) (ps : list Z) (idom : option Z) : cres (option Z) :=
  match ps with
  | [] => CGood idom
  | q :: rest =>
    match m q with
    | None => candidate fuel m rest idom
    | Some _ =>
      match idom with
      | None => candidate fuel m rest (Some q)
      | Some d => cbind (intersect fuel m d q) (fun d' => candidate fuel m rest (Some d'))
      end
    end
  end.

(* vm/control-flow.cpp:156-188: one round over the blocks in reverse postorder. *)
Fixpoint dom_pass (fuel : nat) (bs : list Z) (m : idoms) (changed : bool) : cres (idoms * bool) :=
  match bs with
  | [] => CGood (m, changed)
  | b :: rest =>
    match pred b with
    | [] => dom_pass fuel rest m changed
    | ps =>
      cbind (candidate fuel m ps None)
        (fun c => match c with
                  | None => CUndef UBAssert          (* assert(idom) *)
                  | Some d =>
                    match m b with
                    | Some d0 => if d =? d0 then dom_pass fuel rest m changed
                                 else dom_pass fuel rest (upd m b (Some d)) true
                    | None => dom_pass fuel rest (upd m b (Some d)) true
                    end
                  end)
    end
  end.

(* vm/control-flow.cpp:152-189: rounds until nothing changes. *)
Fixpoint dom_rounds (rounds fuel : nat) (m : idoms) : cres idoms :=
  match rounds with
  | O => CLoop
  | S r => cbind (dom_pass fuel rpo m false)
                 (fun x => let (m', changed) := x : idoms * bool in
                           if changed then dom_rounds r fuel m' else CGood m')
  end.

Definition compute_idoms (rounds fuel : nat) : cres idoms :=
  dom_rounds rounds fuel (upd (fun _ => None) entry (Some entry)).

(* vm/control-flow.cpp:191-203 and 358-361: immediately_dominated_ and num_dominated_, blocks visited in
   postorder; num_dominated_ starts at 1. *)
Fixpoint link_tree (m : idoms) (bs : list Z) (kids : Z -> list Z) (num : Z -> Z) : cres ((Z -> list Z) * (Z -> Z)) :=
  match bs with
  | [] => CGood (kids, num)
  | b :: rest =>
    match m b with
    | None => CUndef UBMem
    | Some d => if b =? d then link_tree m rest kids num
                else link_tree m rest (upd kids d (kids d ++ [b])) (upd num d (num d + num b))
    end
  end.

(* vm/control-flow.cpp:209-223: pre-order numbers; [work] has its back first, [order] the numbered blocks,
   last first, so a block's domtree_id_ is the number of blocks after it in [order]. *)
Fixpoint tree_order (fuel : nat) (kids : Z -> list Z) (work order : list Z) : cres (list Z) :=
  match fuel with
  | O => CLoop
  | S f =>
    match work with
    | [] => CGood order
    | b :: w => tree_order f kids (rev (kids b) ++ w) (b :: order)
    end
  end.
Fixpoint domtree_id (order : list Z) (b : Z) : Z :=
  match order with
  | [] => 0
  | x :: rest => if x =? b then Z.of_nat (length rest) else domtree_id rest b
  end.

(* vm/control-flow.h:101-108 Block::dominates. *)
Definition dominates (order : list Z) (num : Z -> Z) (a b : Z) : bool :=
  (domtree_id order a <=? domtree_id order b) && (domtree_id order b <? domtree_id order a + num a).

(* vm/control-flow.cpp:237-248, the successors of one block: the loop headers found, [None] if the graph
   is not reducible. *)
Fixpoint headers_of (order : list Z) (num : Z -> Z) (b : Z) (cs headers : list Z) : option (list Z) :=
  match cs with
  | [] => Some headers
  | c :: rest =>
    if id c <=? id b then
      if dominates order num c b then headers_of order num b rest (c :: headers) else None
    else headers_of order num b rest headers
  end.

(* vm/control-flow.cpp:232-251 computeLoopHeaders. *)
Fixpoint loop_headers (order : list Z) (num : Z -> Z) (bs headers : list Z) : option (list Z) :=
  match bs with
  | [] => Some headers
  | b :: rest => match headers_of order num b (succ b) headers with
                 | None => None
                 | Some h => loop_headers order num rest h
                 end
  end.

End Dominance.

Record analysis := mkAnalysis {
  an_rpo : list Z; an_idom : Z -> option Z; an_order : list Z; an_num : Z -> Z; an_headers : list Z }.

(* vm/graph-builder.cpp:42-49: the analyses in the order build runs them. *)
Definition analyse (rounds fuel : nat) : cres analysis :=
  cbind (compute_ordering fuel) (fun rpo =>
  cbind (compute_idoms rpo rounds fuel) (fun m =>
  cbind (link_tree m (rev rpo) (fun _ => []) (fun _ => 1)) (fun x =>
  let (kids, num) := x : (Z -> list Z) * (Z -> Z) in
  cbind (tree_order fuel kids [entry] []) (fun order =>
  match loop_headers rpo order num rpo [] with
  | None => CBad INVALID_INSTRUCTION
  | Some h => CGood (mkAnalysis rpo m order num h)
  end)))).

End Graph.

(* The graph the scan produced. *)
Definition g_succ (g : graph) (b : Z) : list Z := map snd (filter (fun e => fst e =? b) (g_edges g)).
Definition g_pred (g : graph) (b : Z) : list Z := map fst (filter (fun e => snd e =? b) (g_edges g)).

(* vm/graph-builder.cpp:31-51 build. *)
Definition build (strict : bool) (rounds fuel : nat) (code : list Z) (start : Z) : cres (pre * graph * analysis) :=
  cbind (scan_method strict fuel code start) (fun x =>
  let (pr, g) := x : pre * graph in
  cbind (analyse start (g_succ g) (g_pred g) rounds fuel) (fun a => CGood (pr, g, a))).
