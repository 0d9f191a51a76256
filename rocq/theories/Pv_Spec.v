(* Where a plugin's public variables are. *)
From Verif Require Import Base Rt_Model Pv_Model.

(* The variable an image means by a name: the last of that name. *)
Definition named (img : list pubvar) (name : list Z) (k : nat) : Prop :=
  (exists v, nth_error img k = Some v /\ pv_name v = name) /\
  forall j v, (k < j)%nat -> nth_error img j = Some v -> pv_name v <> name.
Definition unnamed (img : list pubvar) (name : list Z) : Prop := forall v, In v img -> pv_name v <> name.
(* Its address, if there is one of that name. *)
Definition address_of (img : list pubvar) (name : list Z) (a : option Z) : Prop :=
  match a with Some a => exists k v, named img name k /\ nth_error img k = Some v /\ pv_addr v = a | None => unnamed img name end.
(* Every variable is in the data section, [data] bytes from the start of memory. *)
Definition within (data : Z) (img : list pubvar) : Prop := forall v, In v img -> 0 <= pv_addr v /\ pv_addr v + 4 <= data.
(* The limits of a plugin's memory at some time: the data section is below the heap and the stack. *)
Definition at_work (data size : Z) (L : limits) : Prop := data <= l_hp L /\ l_mem L = size.
(* What is there to be used at [a]: below the heap top, or on the stack. *)
Definition usable (L : limits) (a : Z) : Prop := 0 <= a < l_mem L /\ (a < l_hp L \/ l_sp L <= a).

(* The right answer, whatever was asked before. *)
Definition right (img : list pubvar) (L : limits) (r : request) (a : answer) : Prop :=
  match r with
  | ByIndex i => match nth_error img i with Some v => a = APtr (Some (pv_addr v)) | None => a = ANo EIndex end
  | Addrs i => match nth_error img i with Some v => a = AAddr (pv_addr v) (pv_addr v) | None => a = ANo EIndex end
  | ByName n => match a with AIndex k => named img n k | ANo e => e = ENotFound /\ unnamed img n | _ => False end
  | StringAt x => match a with
                  | APtr (Some p) => p = x /\ usable L x /\ ~ address_of img NULL_STRING (Some x)
                  | APtr None => usable L x /\ address_of img NULL_STRING (Some x)
                  | ANo e => e = EAddress /\ ~ usable L x
                  | _ => False
                  end
  end.
