(* What C34 asks of source positions. *)
From Verif Require Import Base Src_Model.

(* What was entered, in order, by the inclusions and expansions the position space had room for:
   2^31-2 positions, of which a text of n bytes takes n+2. *)
Inductive entry := File (index : Z) (data : list Z) | Macro (at_ : place) (len : Z).
Definition size (e : entry) : Z := match e with File _ d => Z.of_nat (length d) | Macro _ n => n end.
Definition used (es : list entry) : Z := fold_right (fun e n => size e + 2 + n) 0 es.
Definition fits (es : list entry) (e : entry) : bool := used es + size e + 2 <=? 2147483646.
Definition add (es : list entry) (e : entry) : list entry := if fits es e then es ++ [e] else es.
Definition entered1 (es : list entry) (ev : event) : list entry :=
  match ev with Include i d _ => add es (File i d) | Expand _ p n => add es (Macro p n) | _ => es end.
Definition entered (h : list event) : list entry := fold_left entered1 h [].

(* A place that exists: an offset of an entered text, its end included. *)
Definition exists_in (es : list entry) (p : place) : Prop :=
  exists e, (1 <= fst p)%nat /\ nth_error es (fst p - 1) = Some e /\ 0 <= snd p <= size e.
(* Expansions and questions are about places that exist, and sizes fit 32 bits. *)
Definition event_ok (es : list entry) (ev : event) : Prop :=
  match ev with
  | Include i d _ => Z.of_nat (length d) < two32
  | Expand _ p n => exists_in es p /\ 0 <= n < two32
  | AskFile p | AskLine p => exists_in es p
  end.
Fixpoint well_used_from (es : list entry) (h : list event) : Prop :=
  match h with [] => True | ev :: h' => event_ok es ev /\ well_used_from (entered1 es ev) h' end.
Definition well_used (h : list event) : Prop := well_used_from [] h.

(* The file, its contents and the offset a place comes from: in a macro, where it was expanded. *)
Inductive comes_from (es : list entry) : place -> Z -> list Z -> Z -> Prop :=
| from_file k i d o : (1 <= k)%nat -> nth_error es (k - 1) = Some (File i d) -> comes_from es (k, o) i d o
| from_macro k o p n i d o' : (1 <= k)%nat -> nth_error es (k - 1) = Some (Macro p n) -> comes_from es p i d o' ->
    comes_from es (k, o) i d o'.

(* Lines: a line ends after a line feed, and after a carriage return no line feed follows. *)
Definition ends_line (d : list Z) (i : nat) : bool :=
  match nth_error d i with
  | Some c => (c =? 10) || ((c =? 13) && negb (match nth_error d (S i) with Some c' => c' =? 10 | None => false end))
  | None => false
  end.
(* The line of an offset: one more than the lines ended before it. *)
Definition line_of (d : list Z) (o : Z) : Z := 1 + Z.of_nat (length (filter (ends_line d) (seq 0 (Z.to_nat o)))).
(* Where its line starts. *)
Fixpoint start_below (d : list Z) (n : nat) : Z :=
  match n with O => 0 | S i => if ends_line d i then Z.of_nat n else start_below d i end.
Definition line_start (d : list Z) (o : Z) : Z := start_below d (Z.to_nat o).
(* Columns count from 1; the end of the file is reported as column 0. *)
Definition column_of (d : list Z) (o : Z) : Z := if o =? Z.of_nat (length d) then 0 else o - line_start d o + 1.
