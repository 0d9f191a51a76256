(* C35: deduplicating pools return stable, correct addresses. *)
From Verif Require Import Base Pool_Model Pool_Spec Pool_Proofs.

(* The index handed out by the data pool is, now and after any later additions, where exactly the
   data added is found.  (Index 0 is the pool's way of refusing; see C35_refusal.) *)
Theorem C35_data : forall past run later p i,
  pool_add (add_all new_pool past) run = (p, i) -> i <> 0 ->
  found_at (contents (add_all p later)) i run.
Proof. exact pool_data. Qed.
Print Assumptions C35_data.

(* Adding equal data again, however much later, gives the same index and writes nothing. *)
Theorem C35_equal_data : forall past run later p i,
  pool_add (add_all new_pool past) run = (p, i) -> i <> 0 ->
  pool_add (add_all p later) run = (add_all p later, i).
Proof. exact pool_same. Qed.
Print Assumptions C35_equal_data.

(* Bytes once in the pool stay as they are. *)
Theorem C35_never_changes : forall past later,
  prefix_of (contents (add_all new_pool past)) (contents (add_all (add_all new_pool past) later)).
Proof. exact pool_keeps. Qed.
Print Assumptions C35_never_changes.

(* The pool refuses (index 0) only when growing would pass the 2^31 - 1 byte limit, and then it is
   left as it was. *)
Theorem C35_refusal : forall past run p,
  pool_add (add_all new_pool past) run = (p, 0) ->
  contents p = contents (add_all new_pool past) /\
  capacity (buffer (add_all new_pool past)) + Z.of_nat (length run) > INT_MAX.
Proof. exact pool_refusal. Qed.
Print Assumptions C35_refusal.

(* The same for the name table: the name with its terminator is where the index says, again adding
   it changes nothing, earlier names stay, and the length announced is the length written. *)
Theorem C35_names : forall past str later t t1 i t2,
  Forall (fun s => Z.of_nat (length s) + 1 < two32) (past ++ str :: later) ->
  names_all new_names past = Some t -> name_add t str = Some (t1, i) -> names_all t1 later = Some t2 ->
  found_at (name_write t2) i (str ++ [0]) /\ name_add t2 str = Some (t2, i) /\
  prefix_of (name_write t1) (name_write t2) /\ buffer_size t2 = Z.of_nat (length (name_write t2)).
Proof. exact name_data. Qed.
Print Assumptions C35_names.

(* The hypotheses are met: three runs, one repeated, with a later addition. *)
Example C35_example :
  let p := add_all new_pool [[1; 2]; []; [3]; [1; 2]] in
  snd (pool_add p [3]) = 3 /\ snd (pool_add p [1; 2]) = 1 /\ snd (pool_add p [2; 3]) = 4 /\
  contents (add_all p [[2; 3]]) = [0; 1; 2; 3; 2; 3].
Proof. vm_compute. repeat split. Qed.
Example C35_names_example :
  exists t, names_all new_names [[97]; [98; 99]; [97]] = Some t /\ name_write t = [97; 0; 98; 99; 0] /\
            name_add t [98; 99] = Some (t, 2).
Proof. eexists. split; [vm_compute; reflexivity|]. split; vm_compute; reflexivity. Qed.
