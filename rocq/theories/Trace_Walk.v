(* What the iterator does on frames that hang together. *)
From Coq Require Import ZArith List Bool Lia ZifyBool.
From Verif Require Import Base Trace_Model Trace_Spec Trace_Words.
Import ListNotations.
Local Open Scope Z_scope.
Ltac Zify.zify_post_hook ::= idtac.

Section WALK.
Variable code : codebase.

(* The frames of one invocation of compiled code, from that of [fn] at [fp]
   out to the entry frame at [e]: [acts] is what is active outside [fn]. *)
Inductive jchain (mm : Z -> Z) (lo cx : Z) : Z -> Z -> list act -> Z -> Prop :=
| jc_entry : forall fp fn e,
    lo <= fp - 1 -> 0 < fp -> fp < e -> 0 <= fn < two31 ->
    mm (fp - 1) = frame_word t_scripted fn -> mm fp = e ->
    mm (e - 1) = frame_word t_entry 0 ->
    jchain mm lo cx fp fn [] e
| jc_call : forall fp fn p fn' s acts e,
    lo <= fp - 1 -> 0 < fp -> fp < p -> 0 <= fn < two31 ->
    mm (fp - 1) = frame_word t_scripted fn -> mm fp = p -> mm (fp + 1) = s_pc s ->
    recorded code cx fn' s ->
    jchain mm lo cx p fn' acts e ->
    jchain mm lo cx fp fn (ActFun cx fn' (s_cip s) :: acts) e.

(* The whole of what is active when host code runs. *)
Inductive traced (mm : Z -> Z) (lo : Z) : list ivk -> Z -> list act -> Prop :=
| tr_none : forall ex, traced mm lo [] ex []
| tr_int : forall ivks ex cx fn cip na rest,
    na = -1 \/ 0 <= na < two31 ->
    traced mm lo ivks ex rest ->
    traced mm lo (IvInt cx fn cip na :: ivks) ex
      ((if na =? -1 then [] else [ActNat cx na]) ++ ActFun cx fn cip :: rest)
| tr_jit : forall ivks cx prev ex ty p fp fn s acts e rest,
    lo <= ex - 1 -> 0 <= ty < 8 -> 0 <= p < 2 ^ 28 ->
    mm (ex - 1) = frame_word t_exit (encode_exit ty p) -> mm ex = fp -> mm (ex + 1) = s_pc s ->
    recorded code cx fn s -> jchain mm lo cx fp fn acts e ->
    traced mm lo ivks prev rest ->
    traced mm lo (IvJit cx prev :: ivks) ex
      ((if ty =? x_native then [ActNat cx p] else []) ++ ActFun cx fn (s_cip s) :: acts ++ rest).

Lemma jchain_bounds : forall mm lo cx fp fn acts e, jchain mm lo cx fp fn acts e ->
  lo <= fp - 1 /\ 0 < fp /\ fp < e /\ 0 <= fn < two31 /\ mm (fp - 1) = frame_word t_scripted fn.
Proof.
  intros mm lo cx fp fn acts e J. induction J as [| fp fn p fn' s acts e A B C D E F G R J IH].
  - do 4 (split; [assumption|]). assumption.
  - destruct IH as (_ & _ & IH & _). do 2 (split; [assumption|]). split; [lia|]. now split.
Qed.

Lemma jchain_ext : forall mm lo cx fp fn acts e, jchain mm lo cx fp fn acts e ->
  forall mm' lo', lo' <= lo -> (forall a, lo <= a -> mm' a = mm a) ->
  jchain mm' lo' cx fp fn acts e.
Proof.
  intros mm lo cx fp fn acts e J.
  induction J as [fp fn e A B C D E F G | fp fn p fn' s acts e A B C D E F G R J IH];
    intros mm' lo' L X.
  - apply jc_entry; try assumption; try lia; rewrite X by lia; assumption.
  - apply (jc_call mm' lo' cx fp fn p fn' s acts e); try assumption; try lia;
      try (rewrite X by lia; assumption).
    apply IH; assumption.
Qed.

Lemma traced_ext : forall mm lo l ex acts, traced mm lo l ex acts ->
  forall mm' lo', lo' <= lo -> (forall a, lo <= a -> mm' a = mm a) ->
  traced mm' lo' l ex acts.
Proof.
  intros mm lo l ex acts T.
  induction T as [| ivks ex cx fn cip na rest N T IH
                  | ivks cx prev ex ty p fp fn s acts e rest A B C D E F R J T IH];
    intros mm' lo' L X.
  - apply tr_none.
  - apply tr_int; [exact N|]. apply IH; assumption.
  - apply (tr_jit mm' lo' ivks cx prev ex ty p fp fn s acts e rest); try assumption; try lia;
      try (rewrite X by lia; assumption).
    + apply (jchain_ext _ _ _ _ _ _ _ J); assumption.
    + apply IH; assumption.
Qed.

(* ---- the table ---- *)

Lemma find_nodup : forall (l : list (Z * Z)) k v, NoDup (map fst l) -> In (k, v) l ->
  find (fun e => fst e =? k) l = Some (k, v).
Proof.
  induction l as [| [a b] l IH]; intros k v N I; [contradiction I|].
  cbn [find fst]. inversion N as [| x xs NI N']; subst. destruct I as [I | I].
  - injection I as -> ->. rewrite Z.eqb_refl. reflexivity.
  - destruct (Z.eqb_spec a k) as [-> | ne].
    + exfalso. apply NI. change k with (fst (k, v)). apply in_map. exact I.
    + apply IH; assumption.
Qed.

Lemma recorded_found : forall cx fn s, recorded code cx fn s ->
  s_pc s <> 0 /\ exists c, code cx fn = Some c /\ find_cip fn c (s_pc s) = Got (s_cip s).
Proof.
  intros cx fn s (c & C & (E1 & E2) & (Z1 & Z2) & I & N & P). split; [lia|].
  exists c. split; [exact C|]. unfold find_cip.
  destruct (Z.ltb_spec (s_pc s) (c_entry c)) as [l | l]; [lia|].
  rewrite u32_small by lia.
  destruct (Z.ltb_spec (c_size c) (s_pc s - c_entry c)) as [l' | l']; [lia|].
  rewrite (find_nodup _ _ _ N I). cbn [snd].
  replace (fn + (s_cip s - fn)) with (s_cip s) by ring. rewrite u32_small by exact P. reflexivity.
Qed.

(* ---- walking ---- *)

Definition walks (mm : Z -> Z) (it : iter) (acts : list act) : Prop :=
  exists n s, (forall f, (n <= f)%nat -> walk f code mm it = Got s) /\ active s = acts.

Lemma walk_step : forall mm l ex c it' s acts,
  describe code mm c = Got s -> next mm (Iter l ex (Some c)) = Got it' ->
  walks mm it' acts -> walks mm (Iter l ex (Some c)) (active [s] ++ acts).
Proof.
  intros mm l ex c it' s acts D N (n & sl & W & A).
  exists (S n), (s :: sl). split.
  - intros f F. destruct f as [| f]; [lia|]. cbn [walk it_cursor]. rewrite D, N.
    rewrite W by lia. reflexivity.
  - subst acts. destruct s; reflexivity.
Qed.

Lemma is_scripted : forall fn, frame_type (frame_word t_scripted fn) = t_scripted.
Proof. intros. apply frame_type_word. split; [discriminate | reflexivity]. Qed.
Lemma is_entry : forall fn, frame_type (frame_word t_entry fn) = t_entry.
Proof. intros. apply frame_type_word. split; [discriminate | reflexivity]. Qed.
Lemma is_exit : forall fn, frame_type (frame_word t_exit fn) = t_exit.
Proof. intros. apply frame_type_word. split; [discriminate | reflexivity]. Qed.

Lemma entry_walks : forall mm l prev cx e pc it' rest,
  mm (e - 1) = frame_word t_entry 0 ->
  nextInvokeFrame mm (tl l) prev = Got it' -> walks mm it' rest ->
  walks mm (Iter l prev (Some (CJit cx e pc))) rest.
Proof.
  intros mm l prev cx e pc it' rest E N W.
  apply (walk_step mm l prev (CJit cx e pc) it' (ShInternal cx) rest).
  - cbn [describe]. rewrite E, is_entry. reflexivity.
  - unfold next. cbn [it_cursor cdone it_ivks it_exit]. rewrite E, is_entry. exact N.
  - exact W.
Qed.

Lemma scripted_described : forall mm cx fp fn s, mm (fp - 1) = frame_word t_scripted fn ->
  0 <= fn < two31 -> recorded code cx fn s ->
  describe code mm (CJit cx fp (s_pc s)) = Got (ShScripted cx fn (s_cip s)).
Proof.
  intros mm cx fp fn s W F R. destruct (recorded_found _ _ _ R) as (NZ & c & C & FC).
  cbn [describe]. rewrite W, is_scripted. cbn [Z.eqb t_scripted Pos.eqb].
  rewrite function_id_word by (split; [discriminate | reflexivity]).
  rewrite (wrap32_small _ F), C.
  destruct (Z.eqb_spec (s_pc s) 0) as [z | _]; [contradiction|]. rewrite FC. reflexivity.
Qed.

Lemma chain_walks : forall mm lo cx fp fn acts e, jchain mm lo cx fp fn acts e ->
  forall s l prev it' rest, recorded code cx fn s ->
  nextInvokeFrame mm (tl l) prev = Got it' -> walks mm it' rest ->
  walks mm (Iter l prev (Some (CJit cx fp (s_pc s)))) (ActFun cx fn (s_cip s) :: acts ++ rest).
Proof.
  intros mm lo cx fp fn acts e J.
  induction J as [fp fn e A B C D E F G | fp fn p fn' s' acts e A B C D E F G R' J IH];
    intros s l prev it' rest R N W.
  - apply (walk_step mm l prev (CJit cx fp (s_pc s)) (Iter l prev (Some (CJit cx e (mm (fp + 1)))))
             (ShScripted cx fn (s_cip s)) rest).
    + apply scripted_described; assumption.
    + unfold next. cbn [it_cursor cdone it_ivks it_exit cnext]. rewrite E, is_scripted.
      cbn [t_scripted t_entry Z.eqb Pos.eqb]. rewrite F. reflexivity.
    + apply (entry_walks mm l prev cx e _ it'); assumption.
  - apply (walk_step mm l prev (CJit cx fp (s_pc s)) (Iter l prev (Some (CJit cx p (s_pc s'))))
             (ShScripted cx fn (s_cip s)) (ActFun cx fn' (s_cip s') :: acts ++ rest)).
    + apply scripted_described; assumption.
    + unfold next. cbn [it_cursor cdone it_ivks it_exit cnext]. rewrite E, is_scripted.
      cbn [t_scripted t_entry Z.eqb Pos.eqb]. rewrite F, G. reflexivity.
    + apply (IH s' l prev it'); assumption.
Qed.

Lemma traced_walks : forall mm lo l ex acts, traced mm lo l ex acts ->
  exists it, nextInvokeFrame mm l ex = Got it /\ walks mm it acts.
Proof.
  intros mm lo l ex acts T.
  induction T as [ex | ivks ex cx fn cip na rest N T IH
                  | ivks cx prev ex ty p fp fn s acts e rest A B C D E F R J T IH].
  - exists (Iter [] ex None). split; [reflexivity|]. exists 0%nat, []. split; [|reflexivity].
    intros f _. destruct f; reflexivity.
  - destruct IH as (it' & NI & W). cbn [nextInvokeFrame].
    exists (Iter (IvInt cx fn cip na :: ivks) ex (Some (int_start cx fn cip na))).
    split; [reflexivity|].
    assert (W1 : walks mm (Iter (IvInt cx fn cip na :: ivks) ex (Some (CInt cx fn cip na false)))
                   (ActFun cx fn cip :: rest)).
    { apply (walk_step mm _ ex _ it' (ShScripted cx fn cip) rest); [reflexivity | | exact W].
      exact NI. }
    unfold int_start. destruct (Z.eqb_spec na (-1)) as [-> | ne].
    + exact W1.
    + cbn [negb].
      apply (walk_step mm _ ex (CInt cx fn cip na true)
               (Iter (IvInt cx fn cip na :: ivks) ex (Some (CInt cx fn cip na false)))
               (ShNative cx na) (ActFun cx fn cip :: rest)); [| reflexivity | exact W1].
      cbn [describe]. rewrite u32_small by (unfold two31, two32 in *; lia). reflexivity.
  - destruct IH as (it' & NI & W). destruct (jchain_bounds _ _ _ _ _ _ _ J) as (_ & FP & _).
    destruct (recorded_found _ _ _ R) as (NZ & _).
    cbn [nextInvokeFrame]. unfold jit_start. rewrite D, is_exit, E, F.
    destruct (Z.eqb_spec (s_pc s) 0) as [z | _]; [contradiction|].
    destruct (Z.eqb_spec fp 0) as [z | _]; [lia|].
    cbn [t_exit Z.eqb Pos.eqb negb andb].
    exists (Iter (IvJit cx prev :: ivks) prev (Some (CJit cx ex 0))). split; [reflexivity|].
    destruct (exit_round ty p B C) as (XT & XP).
    assert (W1 : walks mm (Iter (IvJit cx prev :: ivks) prev (Some (CJit cx fp (s_pc s))))
                   (ActFun cx fn (s_cip s) :: acts ++ rest)).
    { apply (chain_walks _ _ _ _ _ _ _ J s _ prev it'); assumption. }
    replace (if ty =? x_native then [ActNat cx p] else [])
      with (active [if ty =? x_native then ShNative cx p else ShInternal cx])
      by (destruct (ty =? x_native); reflexivity).
    apply (walk_step mm _ prev (CJit cx ex 0)
             (Iter (IvJit cx prev :: ivks) prev (Some (CJit cx fp (s_pc s))))).
    + cbn [describe]. rewrite D, is_exit.
      cbn [t_scripted t_exit Z.eqb Pos.eqb]. rewrite XT, XP. destruct (ty =? x_native); reflexivity.
    + unfold next. cbn [it_cursor cdone it_ivks it_exit cnext]. rewrite D, is_exit.
      cbn [t_exit t_entry Z.eqb Pos.eqb]. rewrite E, F. reflexivity.
    + exact W1.
Qed.

Lemma listing_shows : forall m lo acts, traced (mem m) lo (top m) (exit_fp m) acts ->
  exists n s, (forall f, (n <= f)%nat -> listing f code m = Got s) /\ active s = acts.
Proof.
  intros m lo acts T. destruct (traced_walks _ _ _ _ _ T) as (it & N & n & s & W & A).
  exists n, s. split; [|exact A]. intros f F. unfold listing, reset. rewrite N. apply W. exact F.
Qed.

(* ---- the entry frame ---- *)

Lemma entry_loop_finds : forall mm lo cx fp fn acts e, jchain mm lo cx fp fn acts e ->
  exists n, forall f, (n <= f)%nat -> forall fp0, entry_loop f mm fp fp0 = Got e.
Proof.
  intros mm lo cx fp fn acts e J.
  induction J as [fp fn e A B C D E F G | fp fn p fn' s acts e A B C D E F G R J IH].
  - exists 1%nat. intros f L fp0. destruct f as [| f]; [lia|]. cbn [entry_loop].
    rewrite E, is_scripted. cbn [t_scripted t_entry Z.eqb Pos.eqb]. rewrite F.
    assert (X : entry_loop f mm e e = Got e); [|exact X].
    destruct f as [| f]; cbn [entry_loop]; rewrite G, is_entry;
      cbn [t_entry Z.eqb Pos.eqb]; destruct (Z.eqb_spec e 0) as [z | _]; (lia || reflexivity).
  - destruct IH as (n & IH). exists (S n). intros f L fp0. destruct f as [| f]; [lia|].
    cbn [entry_loop]. rewrite E, is_scripted. cbn [t_scripted t_entry Z.eqb Pos.eqb]. rewrite F.
    apply IH. lia.
Qed.

Lemma find_entry_ok : forall m lo cx fp fn acts e id,
  jchain (mem m) lo cx fp fn acts e ->
  mem m (exit_fp m - 1) = frame_word t_exit id -> mem m (exit_fp m) = fp ->
  mem m (exit_fp m + 1) <> 0 ->
  exists n, forall f, (n <= f)%nat -> find_entry_fp f m = Got e.
Proof.
  intros m lo cx fp fn acts e id J W P NZ.
  destruct (jchain_bounds _ _ _ _ _ _ _ J) as (_ & FP & _).
  destruct (entry_loop_finds _ _ _ _ _ _ _ J) as (n & L).
  exists (S n). intros f F. destruct f as [| f]; [lia|].
  unfold find_entry_fp, jit_start. rewrite W, is_exit, P.
  destruct (Z.eqb_spec (mem m (exit_fp m + 1)) 0) as [z | _]; [contradiction|].
  destruct (Z.eqb_spec fp 0) as [z | _]; [lia|].
  cbn [t_exit Z.eqb Pos.eqb negb andb]. cbn [entry_loop]. rewrite W, is_exit.
  cbn [t_exit t_entry Z.eqb Pos.eqb]. rewrite P. apply L. lia.
Qed.
End WALK.
