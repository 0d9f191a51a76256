(* What C20 and C21 ask of function ids and native bindings. *)
From Verif Require Import Base Bind_Model.

(* The public a call is about: an issued id is 2i+1 for the i-th public; a name stands for the last
   public of that name. *)
Definition means (names : list (list Z)) (c : call) (i : Z) : Prop :=
  0 <= i < Z.of_nat (length names) /\
  match c with
  | ById id => id = 2 * i + 1
  | ByName n => nth (Z.to_nat i) names [] = n /\ forall j, i < j < Z.of_nat (length names) -> nth (Z.to_nat j) names [] <> n
  end.

(* Native bindings as a history, latest request first: what native [i] is bound to. *)
Definition optional_or_ephemeral (flags : Z) : Prop := Z.testbit flags 0 = true \/ Z.testbit flags 1 = true.
Inductive binding (nnatives : Z) : list request -> Z -> option fn -> Z -> Prop :=
| b_start i : binding nnatives [] i None 0
| b_other r h i f fl : binding nnatives h i f fl -> r_index r <> i -> binding nnatives (r :: h) i f fl
| b_refused r h f fl : binding nnatives h (r_index r) (Some f) fl -> ~ optional_or_ephemeral fl ->
    binding nnatives (r :: h) (r_index r) (Some f) fl
| b_range r h f fl : binding nnatives h (r_index r) f fl -> nnatives <= r_index r ->
    binding nnatives (r :: h) (r_index r) f fl
| b_taken r h f fl : binding nnatives h (r_index r) f fl -> r_index r < nnatives -> f = None \/ optional_or_ephemeral fl ->
    binding nnatives (r :: h) (r_index r) (r_fn r) (r_flags r).
(* What a request is answered, given what the native was bound to. *)
Definition reply (nnatives : Z) (h : list request) (r : request) (x : bind_result) : Prop :=
  match x with
  | BindIndex => nnatives <= r_index r
  | BindParam => r_index r < nnatives /\ exists f fl, binding nnatives h (r_index r) (Some f) fl /\ ~ optional_or_ephemeral fl
  | BindOk => r_index r < nnatives /\ exists f fl, binding nnatives h (r_index r) f fl /\ (f = None \/ optional_or_ephemeral fl)
  end.
