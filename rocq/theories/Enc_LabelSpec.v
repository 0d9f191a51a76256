(* What code with labels is: for some places of the steps, one after the other from 0 to the end, the bytes are those given, and every
   jump is one to the place where its label was bound. *)
From Verif Require Import Base Enc_Model Enc_Spec Enc_Stream Enc_Label.

Definition slice (c : list Z) (a b : nat) : list Z := firstn (b - a) (skipn a c).
Definition laid (steps : list step) (c : list Z) (start : nat -> nat) : Prop :=
  start O = O /\ start (length steps) = length c /\
  forall k o, nth_error steps k = Some o ->
    (start k <= start (S k))%nat /\
    match o with
    | Bytes bs => slice c (start k) (start (S k)) = bs
    | Bind l => start (S k) = start k
    | Jump j l => exists m d, nth_error steps m = Some (Bind l)
        /\ (forall rest, decode (slice c (start k) (start (S k)) ++ rest) = Some (jumps j d, rest))
        /\ Z.of_nat (start (S k)) + d = Z.of_nat (start m)
    end.
Definition closed (steps : list step) : Prop := forall j l, In (Jump j l) steps -> ok_jump j = true /\ In (Bind l) steps.
Definition step_size (o : step) : Z := match o with Bytes bs => Z.of_nat (length bs) | Jump _ _ => 6 | Bind _ => 0 end.
Fixpoint steps_size (l : list step) : Z := match l with [] => 0 | o :: r => step_size o + steps_size r end.
Definition binds (l : list step) : list nat := flat_map (fun o => match o with Bind k => [k] | _ => [] end) l.
