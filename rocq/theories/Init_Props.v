(* C40: array initialisers. *)
From Verif Require Import Base Rt_Model Array_Model Interp_Model Rt_Spec Hist_Proofs Array_Exec Init_Spec Init_Proofs.

(* C40.  For cell-aligned addresses and non-negative sizes (the bytecode verifier demands both of
   the template) and a destination above static data: a request that fits copies exactly the template
   and changes nothing else; any other is refused and changes nothing.  Missing from the English
   property: unaligned destinations and "fits the destination" read as the destination's own block
   (both refuted below; the code compares only with the end of the plugin's memory). *)
Theorem C40_initialiser_partial : forall strict fe natives mi r dat iv copy fill v s p a,
  let arr := match r with Pri => p | Alt => a end in
  layout s -> pointers_ok s -> is_i32 (frm s) -> is_i32 (hp_scope s) ->
  mem_size s mod 4 = 0 -> data_size s mod 4 = 0 -> arr mod 4 = 0 -> dat mod 4 = 0 ->
  is_i32 arr -> is_i32 dat -> is_i32 v -> 0 <= iv -> 0 <= copy -> 0 <= fill -> data_size s <= arr ->
  (init_fits s arr dat iv copy fill ->
     exists m', exec strict fe natives mi (INITARRAY r dat iv copy fill v) (mkIst s p a)
                  = Ok tt (mkIst (set_mem m' s) p a) /\
       materialised (mem s) m' arr dat iv copy fill v) /\
  (~ init_fits s arr dat iv copy fill ->
     exec strict fe natives mi (INITARRAY r dat iv copy fill v) (mkIst s p a)
       = Fail INVALID_ADDRESS (mkIst s p a)).
Proof. exact script_init. Qed.
Print Assumptions C40_initialiser_partial.

Example C40_hypotheses : exists s, perform_all [OHeap 24] demo_rt = Ok tt s /\ layout s /\ pointers_ok s /\
  is_i32 (frm s) /\ is_i32 (hp_scope s) /\ mem_size s mod 4 = 0 /\ data_size s mod 4 = 0 /\
  data_size s <= 16 /\ init_fits s 16 0 1 3 2.
Proof. exact init_example. Qed.

(* An unaligned destination at the end of memory is accepted and written past the end. *)
Theorem C40_unaligned_refuted : exists s p, fresh s /\ p mod 4 <> 0 /\
  exec false fe0 (fun _ => None) mi0 (INITARRAY Pri 0 0 0 1 7) (mkIst s p 0) = UB UBMem.
Proof. exact init_unaligned. Qed.
Print Assumptions C40_unaligned_refuted.

(* An initialiser longer than its heap block is accepted and overwrites the live stack. *)
Theorem C40_overrun_refuted : exists s s' p fill,
  perform_all [OHeap 8; OPush 1234] demo_rt = Ok tt s /\ pointers_ok s /\
  exec false fe0 (fun _ => None) mi0 (INITARRAY Pri 0 0 0 fill 7) (mkIst s p 0) = Ok tt s' /\
  p + 8 = hp s /\ load32 (mem s) (sp s) = 1234 /\ load32 (mem (rts s')) (sp s) = 7.
Proof. exact init_overruns. Qed.
Print Assumptions C40_overrun_refuted.
