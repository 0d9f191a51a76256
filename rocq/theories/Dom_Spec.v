(* What the analyses should compute, in terms of paths only. *)
From Verif Require Import Base Rt_Model Array_Model Interp_Model Cfg_Model Dom_Model.

Section Graph.
Variable entry : Z.
Variable succ : Z -> list Z.

(* A path from the entry to a block: the blocks on it, last first. *)
Inductive path : list Z -> Z -> Prop :=
| path_entry : path [entry] entry
| path_step l b c : path l b -> In c (succ b) -> path (c :: l) c.

Definition reachable (b : Z) : Prop := exists l, path l b.

(* [a] dominates [b]: every path to [b] goes through [a]. *)
Definition doms (a b : Z) : Prop := reachable b /\ forall l, path l b -> In a l.

(* The immediate dominator: the strict dominator that every other strict dominator dominates. *)
Definition is_idom (d b : Z) : Prop :=
  d <> b /\ doms d b /\ forall a, doms a b -> a <> b -> doms a d.

(* A loop's back edge goes from [b] to a block that dominates [b]. *)
Definition back_edge (b h : Z) : Prop := In h (succ b) /\ doms h b.

(* Going round without taking a back edge. *)
Definition forward_edge (a b : Z) : Prop := reachable a /\ In b (succ a) /\ ~ back_edge a b.
Inductive forward : Z -> Z -> Prop :=
| forward_one a b : forward_edge a b -> forward a b
| forward_more a b c : forward_edge a b -> forward b c -> forward a c.
Definition irreducible : Prop := exists a, forward a a.
End Graph.

(* A finite graph; nothing leads back to the entry. *)
Definition graph_ok (entry : Z) (succ pred : Z -> list Z) : Prop :=
  (exists nodes, In entry nodes /\ forall a b, In a nodes -> In b (succ a) -> In b nodes) /\
  (forall a b, In b (succ a) <-> In a (pred b)) /\
  pred entry = [].

(* [a] comes before [b] in the list. *)
Definition before (l : list Z) (a b : Z) : Prop := exists l1 l2 l3, l = l1 ++ a :: l2 ++ b :: l3.

(* --- What the graph of a method should be --- *)
Section Blocks.
Variable code : list Z.
Variable start : Z.
Variable targets : list Z.

(* The first instruction of the block named [b]: the entry block is named by the method's PROC. *)
Definition first_of (b : Z) : Z := if b =? start then start + 1 else b.

(* A block other than [b] starts at [c]. *)
Definition joins (b c : Z) : Prop := In c targets /\ c <> b.

(* The cells passed going through the block [b] from its first instruction. *)
Inductive span (b : Z) : Z -> Prop :=
| span_first : span b (first_of b)
| span_next c : span b c -> ~ joins b c -> is_control (cell_at code c) = false -> span b (c + insn_size code c).

(* The block [b] ends before cell [e] and its successors are [ss]: it runs into another block's start, or
   ends with a return, a jump, a conditional jump (fall-through first) or a switch (default first). *)
Inductive block_end (b : Z) : Z -> list Z -> Prop :=
| end_join c : span b c -> joins b c -> block_end b c [c]
| end_retn c : span b c -> ~ joins b c -> cell_at code c = OP_RETN -> block_end b (c + 1) []
| end_jump c : span b c -> ~ joins b c -> cell_at code c = OP_JUMP ->
               block_end b (c + 2) [cell_at code (c + 1) / 4]
| end_cond c : span b c -> ~ joins b c -> is_jump (cell_at code c) = true -> cell_at code c <> OP_JUMP ->
               block_end b (c + 2) [c + 2; cell_at code (c + 1) / 4]
| end_switch c : span b c -> ~ joins b c -> cell_at code c = OP_SWITCH ->
               cell_at code (cell_at code (c + 1) / 4) = OP_CASETBL ->
               block_end b (c + 2) (map (fun o => o / 4) (table_offsets code (cell_at code (c + 1) / 4))).
End Blocks.

(* The graph [g] of the method: its blocks are the entry and [g_known g], all reachable; every one ends as
   it should; nothing leads to the entry. *)
Record blocks_ok (code : list Z) (start : Z) (pr : pre) (g : graph) : Prop := {
  bo_nodup : NoDup (start :: g_known g);
  bo_insn : incl (g_known g) (pr_insns pr);
  bo_end : forall b, In b (start :: g_known g) ->
             exists e, block_end code start (pr_targets pr) b e (g_succ g b) /\ In (b, e) (g_ends g);
  bo_one_end : NoDup (map fst (g_ends g));
  bo_edge : forall a b, In b (g_succ g a) -> In a (start :: g_known g) /\ In b (g_known g);
  bo_reach : forall b, In b (start :: g_known g) -> reachable start (g_succ g) b }.

(* What the analyses of a graph should deliver. *)
Record analysed (entry : Z) (succ : Z -> list Z) (a : analysis) : Prop := {
  as_once : NoDup (an_rpo a);
  as_all : forall b, In b (an_rpo a) <-> reachable entry succ b;
  as_order : forall p b, reachable entry succ p -> In b (succ p) -> ~ back_edge entry succ p b -> before (an_rpo a) p b;
  as_entry : an_idom a entry = Some entry;
  as_idom : forall b, reachable entry succ b -> b <> entry -> exists d, an_idom a b = Some d /\ is_idom entry succ d b;
  as_dominates : forall p b, reachable entry succ p -> reachable entry succ b ->
                   dominates (an_order a) (an_num a) p b = true <-> doms entry succ p b;
  as_headers : forall h, In h (an_headers a) <-> exists b, back_edge entry succ b h }.
