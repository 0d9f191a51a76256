(* C20, C21: function ids and native bindings. *)
From Verif Require Import Base Bind_Model Bind_Spec Bind_Proofs.

(* Whatever the host asks, in any order: an id that was issued, or the name of a public, gives an
   object that reports the id issued for that public; anything else gives nothing; and two questions
   give the same object exactly when they are about the same public. *)
Theorem C20_ids_resolve names nn cs : Z.of_nat (length names) < two31 -> Forall askable cs ->
  let '(rs, p) := answers (loaded names nn) cs in length rs = length cs /\
  (forall k c r, nth_error cs k = Some c -> nth_error rs k = Some r ->
     match r with
     | Some o => exists i, means names c i /\ id_of p o = 2 * i + 1 /\ GetPublicByIndex p i = Some (id_of p o)
     | None => forall i, ~ means names c i
     end) /\
  (forall k1 k2 c1 c2 o1 o2, nth_error cs k1 = Some c1 -> nth_error cs k2 = Some c2 ->
     nth_error rs k1 = Some (Some o1) -> nth_error rs k2 = Some (Some o2) ->
     (o1 = o2 <-> exists i, means names c1 i /\ means names c2 i)).
Proof. exact (ids_resolve names nn cs). Qed.
Print Assumptions C20_ids_resolve.

(* Three publics, two of the same name; an id is asked for twice, once through its name. *)
Example C20_case : fst (answers (loaded [[97]; [98]; [97]] 0) [ById 5; ByName [97]; ById 1; ById 4; ById 7; ByName [99]; ById 5])
  = [Some 0%nat; Some 0%nat; Some 1%nat; None; None; None; Some 0%nat].
Proof. reflexivity. Qed.

(* Over any history of requests: each is answered according to what the native was bound to, and a call
   reaches what the history says the native is bound to, or fails if it is not bound. *)
Theorem C21_bindings names nn rs : Forall (fun r => 0 <= r_index r) rs ->
  let '(xs, p) := bind_all (loaded names nn) rs in let n := Z.of_nat nn in length xs = length rs /\
  (forall k r x, nth_error rs k = Some r -> nth_error xs k = Some x -> reply n (rev (firstn k rs)) r x) /\
  (forall i, 0 <= i -> exists fl, binding n (rev rs) i (call_native p i) fl).
Proof. exact (natives_bound names nn rs). Qed.
Print Assumptions C21_bindings.

(* The history determines the binding. *)
Theorem C21_determined n h i f fl f' fl' : binding n h i f fl -> binding n h i f' fl' -> f' = f /\ fl' = fl.
Proof. exact (binding_fun n h i f fl f' fl'). Qed.
Print Assumptions C21_determined.

(* Native 1 is bound for good and refuses a second binding, native 0 is ephemeral and takes one, native 2 does not exist. *)
Example C21_case :
  let rs := [mkRequest 1 (Some (Legacy 10)) 0 0; mkRequest 1 (Some (Legacy 11)) 2 0; mkRequest 0 (Some (Callback 12)) 2 0;
             mkRequest 2 None 0 0; mkRequest 0 (Some (Legacy 13)) 0 0; mkRequest 0 None 0 0] in
  Forall (fun r => 0 <= r_index r) rs /\
  let '(xs, p) := bind_all (loaded [] 2) rs in
  xs = [BindOk; BindParam; BindOk; BindIndex; BindOk; BindParam] /\
  call_native p 0 = Some (Legacy 13) /\ call_native p 1 = Some (Legacy 10) /\ call_native p 2 = None.
Proof. cbv zeta. split; [repeat (apply Forall_cons; [cbn; lia|]); apply Forall_nil|repeat split]. Qed.
