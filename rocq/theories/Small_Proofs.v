From Coq Require String. Import String.StringSyntax.
From Verif Require Import Base Base_Proofs Small_Model Small_Spec.
From Coq Require Import ZifyBool.
Ltac Zify.zify_post_hook ::= Z.div_mod_to_equations.
Open Scope Z_scope.

(* Error texts. *)
Lemma error_known e s : In (e, s) error_text -> GetErrorString e = Value (Some s).
Proof.
  unfold error_text. cbn [In]. intros H.
  repeat (destruct H as [[= <- <-]|H]; [reflexivity|]). destruct H.
Qed.
Lemma error_unknown e : ~ known_code e -> e <> 34 -> GetErrorString e = Value None.
Proof.
  intros N N34. unfold GetErrorString. change (Z.of_nat (length sErrorMsgTable)) with 34.
  destruct ((e <? 1) || (e >? 34))%bool eqn:E; [reflexivity|]. exfalso. apply N. unfold known_code. cbn [map fst error_text In].
  lia.
Qed.
Lemma error_outside : ~ known_code 34 /\ GetErrorString 34 = OutsideTable.
Proof. split; [|reflexivity]. unfold known_code. cbn. lia. Qed.

(* String literals. *)
Lemma lor_high v n c : 0 <= n -> 0 <= v < 2 ^ n -> Z.lor v (c * 2 ^ n) = v + c * 2 ^ n.
Proof.
  intros N V. symmetry. rewrite <- Z.lxor_lor; [apply Z.add_nocarry_lxor|]; apply Z.bits_inj'; intros k K;
    rewrite Z.land_spec, Z.bits_0; (destruct (Z_lt_le_dec k n) as [L|L];
      [rewrite Z.mul_pow2_bits_low by lia; apply andb_false_r|]);
    (replace (Z.testbit v k) with false; [reflexivity|]); symmetry; (destruct (Z.eq_dec v 0) as [->|NZ]; [apply Z.bits_0|]);
    apply Z.bits_above_log2; try lia; (apply Z.lt_le_trans with n; [|exact L]); apply Z.log2_lt_pow2; lia.
Qed.
Lemma shifted c k : is_byte c -> 0 <= k <= 3 -> u32 (Z.shiftl c (8 * k)) = c * 2 ^ (8 * k).
Proof.
  intros C K. rewrite Z.shiftl_mul_pow2 by lia. unfold u32. apply Z.mod_small. unfold is_byte in C.
  assert (k = 0 \/ k = 1 \/ k = 2 \/ k = 3) as [-> | [-> | [-> | ->]]] by lia; unfold two32;
    [change (2 ^ (8 * 0)) with 1|change (2 ^ (8 * 1)) with 256|change (2 ^ (8 * 2)) with 65536|change (2 ^ (8 * 3)) with 16777216]; lia.
Qed.
Definition word4 (a b c d : Z) : Z := a + b * 256 + c * 65536 + d * 16777216.
Lemma word4_bytes a b c d : is_byte a -> is_byte b -> is_byte c -> is_byte d -> cell_bytes (word4 a b c d) = [a; b; c; d].
Proof.
  unfold is_byte. intros A B C D. unfold cell_bytes. rewrite byte_of_0, byte_of_1, byte_of_2, byte_of_3. unfold word4.
  repeat f_equal; lia.
Qed.
Lemma or0 a : is_byte a -> Z.lor 0 (u32 (Z.shiftl a (8 * 0))) = a.
Proof. intros A. rewrite shifted by (auto; lia). rewrite Z.lor_0_l. change (2 ^ (8 * 0)) with 1. lia. Qed.
Lemma or1 a b : is_byte a -> is_byte b -> Z.lor a (u32 (Z.shiftl b (8 * (0 + 1)))) = a + b * 256.
Proof.
  intros A B. rewrite shifted by (auto; lia). rewrite lor_high; [reflexivity|lia|]. change (2 ^ (8 * (0 + 1))) with 256. exact A.
Qed.
Lemma or2 v b : 0 <= v < 65536 -> is_byte b -> Z.lor v (u32 (Z.shiftl b (8 * (0 + 1 + 1)))) = v + b * 65536.
Proof.
  intros A B. rewrite shifted by (auto; lia). rewrite lor_high; [reflexivity|lia|]. change (2 ^ (8 * (0 + 1 + 1))) with 65536. exact A.
Qed.
Lemma or3 v b : 0 <= v < 16777216 -> is_byte b -> Z.lor v (u32 (Z.shiftl b (8 * (0 + 1 + 1 + 1)))) = v + b * 16777216.
Proof.
  intros A B. rewrite shifted by (auto; lia). rewrite lor_high; [reflexivity|lia|]. change (2 ^ (8 * (0 + 1 + 1 + 1))) with 16777216. exact A.
Qed.
Definition pad4 (n : nat) : nat := (4 - n mod 4)%nat.

Lemma pad4_skip n : pad4 (S (S (S (S n)))) = pad4 n.
Proof.
  unfold pad4. replace (S (S (S (S n)))) with (n + 1 * 4)%nat by lia. now rewrite Nat.mod_add by lia.
Qed.

Lemma string_cells_aux : forall n s, (length s < n)%nat -> Forall is_byte s ->
  bytes_of_cells (StringToCells s) = s ++ repeat 0 (pad4 (length s)) /\
  length (StringToCells s) = S (length s / 4).
Proof.
  assert (Z0 : is_byte 0) by (unfold is_byte; lia).
  induction n as [|n IH]; intros s N F; [lia|]. unfold StringToCells.
  destruct s as [|a s]; [split; reflexivity|]. inversion F as [|? ? A F1]; subst. cbn [string_loop]. rewrite (or0 a A).
  change (0 =? 3) with false. cbn [length].
  destruct s as [|b s].
  { cbn [string_loop]. change (0 + 1 =? 0) with false. split; [|reflexivity].
    cbn [bytes_of_cells flat_map]. replace a with (word4 a 0 0 0) at 1 by (unfold word4; lia).
    rewrite word4_bytes by auto. reflexivity. }
  inversion F1 as [|? ? B F2]; subst. cbn [string_loop]. rewrite (or1 a b A B). change (0 + 1 =? 3) with false.
  destruct s as [|c s].
  { cbn [string_loop]. change (0 + 1 + 1 =? 0) with false. split; [|reflexivity].
    cbn [bytes_of_cells flat_map]. replace (a + b * 256) with (word4 a b 0 0) at 1 by (unfold word4; lia).
    rewrite word4_bytes by auto. reflexivity. }
  inversion F2 as [|? ? C F3]; subst. cbn [string_loop]. unfold is_byte in A, B, C.
  rewrite (or2 (a + b * 256) c) by (unfold is_byte; lia). change (0 + 1 + 1 =? 3) with false.
  destruct s as [|d s].
  { cbn [string_loop]. change (0 + 1 + 1 + 1 =? 0) with false. split; [|reflexivity].
    cbn [bytes_of_cells flat_map]. replace (a + b * 256 + c * 65536) with (word4 a b c 0) at 1 by (unfold word4; lia).
    rewrite word4_bytes by auto. reflexivity. }
  inversion F3 as [|? ? D F4]; subst. cbn [string_loop].
  rewrite (or3 (a + b * 256 + c * 65536) d) by (auto; unfold is_byte; lia). change (0 + 1 + 1 + 1 =? 3) with true. cbn iota.
  destruct (IH s ltac:(cbn [length] in N; lia) F4) as [H1 H2]. unfold StringToCells in H1, H2. split.
  - cbn [bytes_of_cells flat_map]. change (flat_map cell_bytes (string_loop s 0 0)) with (bytes_of_cells (string_loop s 0 0)).
    rewrite H1. change (a + b * 256 + c * 65536 + d * 16777216) with (word4 a b c d). rewrite word4_bytes by auto.
    cbn [length app]. rewrite pad4_skip. reflexivity.
  - cbn [length]. rewrite H2. change (S (S (S (S (length s))))) with (4 + length s)%nat.
    replace (4 + length s)%nat with (1 * 4 + length s)%nat by lia. now rewrite Nat.div_add_l by lia.
Qed.
Lemma string_cells s : Forall is_byte s ->
  exists k, (1 <= k <= 4)%nat /\ bytes_of_cells (StringToCells s) = s ++ repeat 0 k /\
    Z.of_nat (length (StringToCells s)) = char_array_cells (Z.of_nat (length s) + 1).
Proof.
  intros F. destruct (string_cells_aux (S (length s)) s (Nat.lt_succ_diag_r _) F) as [H1 H2].
  exists (pad4 (length s)). split; [unfold pad4; pose proof (Nat.mod_upper_bound (length s) 4); lia|]. split; [exact H1|].
  rewrite H2. unfold char_array_cells. rewrite Nat2Z.inj_succ, Nat2Z.inj_div. lia.
Qed.
Lemma string_minimal s cs k : bytes_of_cells cs = s ++ repeat 0 k -> (1 <= k)%nat ->
  char_array_cells (Z.of_nat (length s) + 1) <= Z.of_nat (length cs).
Proof.
  intros E K. assert (L : length (bytes_of_cells cs) = (4 * length cs)%nat).
  { unfold bytes_of_cells. clear. induction cs as [|c cs IH]; [reflexivity|]. cbn [flat_map]. rewrite app_length, IH. cbn. lia. }
  apply (f_equal (@length Z)) in E. rewrite L, app_length, repeat_length in E. unfold char_array_cells. lia.
Qed.

(* Code allocator. *)
Definition disjoint_pools (p q : pool) : Prop := p_end p <= p_start q \/ p_end q <= p_start p.
Definition block_in (h : heap) (b : block) : Prop :=
  (b_pool b < length (pools h))%nat /\ p_start (pool_at h (b_pool b)) <= b_address b /\ 0 <= b_bytes b /\
  b_address b + b_bytes b <= p_ptr (pool_at h (b_pool b)).
Fixpoint pairwise {A} (R : A -> A -> Prop) (l : list A) : Prop :=
  match l with [] => True | x :: l' => (forall y, In y l' -> R x y) /\ pairwise R l' end.
Record Good (h : heap) : Prop := {
  g_pool : forall i, (i < length (pools h))%nat ->
     0 <= p_start (pool_at h i) /\ p_start (pool_at h i) <= p_ptr (pool_at h i) <= p_end (pool_at h i) /\ p_end (pool_at h i) <= two64;
  g_cached : forall i, In i (cached h) -> (i < length (pools h))%nat;
  g_disj : forall i j, mapped h i -> mapped h j -> i <> j -> disjoint_pools (pool_at h i) (pool_at h j);
  g_block : forall b, In b (live h) -> block_in h b;
  g_apart : pairwise blocks_apart (live h)
}.

Lemma pool_at_set h i p j : (i < length (pools h))%nat ->
  pool_at {| pools := set_pool (pools h) i p; cached := cached h; live := live h |} j = if Nat.eqb j i then p else pool_at h j.
Proof.
  unfold pool_at. cbn [pools]. generalize (pools h) as ps. intros ps. revert i j.
  induction ps as [|q ps IH]; intros [|i] [|j] L; cbn in *; try lia; auto. apply IH. lia.
Qed.
Lemma length_set_pool ps i p : length (set_pool ps i p) = length ps.
Proof. revert i. induction ps as [|q ps IH]; intros [|i]; cbn; auto. Qed.

Lemma find_pool_spec h bytes : forall cs min r, find_pool h bytes cs min = Some r ->
  (In r cs /\ bytes <= bytesFree (pool_at h r)) \/ min = Some r.
Proof.
  induction cs as [|i cs IH]; intros min r H; cbn [find_pool] in H; [now right|].
  apply IH in H as [[H1 H2]|H]; [left; split; [now right|exact H2]|].
  destruct (bytes >? bytesFree (pool_at h i)) eqn:E; [now right|].
  destruct min as [m|].
  - destruct (bytesFree (pool_at h i) <? bytesFree (pool_at h m)); [|now right]. injection H as <-. left. split; [now left|lia].
  - injection H as <-. left. split; [now left|lia].
Qed.

(* One allocation inside a mapped pool with room. *)
Lemma alloc_in_good h i bytes : Good h -> mapped h i \/ (forall j, mapped h j -> disjoint_pools (pool_at h i) (pool_at h j)) ->
  (i < length (pools h))%nat -> 0 <= bytes <= bytesFree (pool_at h i) ->
  exists h' b, allocateInPool h i bytes = Some (h', b) /\ Good h' /\ b_bytes b = bytes /\ b_pool b = i /\
    live h' = b :: live h /\ cached h' = cached h /\ length (pools h') = length (pools h) /\
    (forall j, p_start (pool_at h' j) = p_start (pool_at h j) /\ p_end (pool_at h' j) = p_end (pool_at h j)).
Proof.
  intros [GP GC GD GB GA] M IL BF. unfold allocateInPool, bytesFree in *.
  replace (p_ptr (pool_at h i) + bytes <=? p_end (pool_at h i)) with true by lia.
  set (p := {| p_start := p_start (pool_at h i); p_ptr := p_ptr (pool_at h i) + bytes; p_end := p_end (pool_at h i) |}).
  set (b := {| b_pool := i; b_address := p_ptr (pool_at h i); b_bytes := bytes |}).
  set (h' := {| pools := set_pool (pools h) i p; cached := cached h; live := b :: live h |}).
  assert (PA : forall j, pool_at h' j = if Nat.eqb j i then p else pool_at h j).
  { intros j. exact (pool_at_set h i p j IL). }
  assert (SE : forall j, p_start (pool_at h' j) = p_start (pool_at h j) /\ p_end (pool_at h' j) = p_end (pool_at h j)).
  { intros j. rewrite PA. destruct (Nat.eqb_spec j i) as [->|]; auto. }
  assert (MI : forall j, mapped h' j -> j = i \/ mapped h j).
  { intros j [C|(c & [<-|C] & E)]; [right; now left|left; auto|right; right; now exists c]. }
  assert (DI : forall j, mapped h j -> j <> i -> disjoint_pools (pool_at h i) (pool_at h j)).
  { intros j J N. destruct M as [M|M]; [apply GD; auto|now apply M]. }
  assert (IM : forall j, mapped h' j -> mapped h j \/ j = i) by (intros j J; apply MI in J; tauto).
  exists h', b. split; [reflexivity|]. split; [|repeat split; auto; try apply SE; cbn; apply length_set_pool].
  constructor.
  - intros j J. cbn [pools h'] in J. unfold h' in J. cbn in J. rewrite length_set_pool in J. rewrite PA.
    destruct (Nat.eqb_spec j i) as [->|N]; [|now apply GP]. destruct (GP i IL) as (A & B & C). cbn. lia.
  - intros j J. unfold h'. cbn. rewrite length_set_pool. now apply GC.
  - intros j k J K N. unfold disjoint_pools. destruct (SE j) as [-> ->], (SE k) as [-> ->].
    apply MI in J as [-> | J]; apply MI in K as [-> | K]; try congruence.
    + apply DI; auto.
    + specialize (DI j J N). unfold disjoint_pools in DI. tauto.
    + now apply GD.
  - intros c [<-|C].
    + unfold block_in. cbn [b_pool b_address b_bytes b]. rewrite PA, Nat.eqb_refl. cbn. rewrite length_set_pool.
      destruct (GP i IL) as (A & B & D). repeat split; try lia; exact IL.
    + destruct (GB c C) as (B1 & B2 & B3 & B4). unfold block_in. rewrite PA. unfold h'. cbn [pools]. rewrite length_set_pool.
      split; [exact B1|]. destruct (Nat.eqb_spec (b_pool c) i) as [E|N]; [|auto]. rewrite E in *. cbn. lia.
  - cbn. split; [|exact GA]. intros c C. destruct (GB c C) as (B1 & B2 & B3 & B4). unfold blocks_apart, apart. cbn.
    destruct (Nat.eq_dec (b_pool c) i) as [E|N].
    + rewrite E in *. right. lia.
    + assert (MC : mapped h (b_pool c)) by (right; now exists c).
      destruct (GP (b_pool c) B1) as (_ & P2 & _). destruct (GP i IL) as (_ & P4 & _).
      specialize (DI (b_pool c) MC N). unfold disjoint_pools in DI. lia.
Qed.

Lemma Good_mapped h h' : Good h -> pools h' = pools h -> live h' = live h -> (forall i, In i (cached h') -> (i < length (pools h))%nat) ->
  (forall i, mapped h' i -> mapped h i) -> Good h'.
Proof.
  intros [GP GC GD GB GA] P L C M.
  assert (PA : forall i, pool_at h' i = pool_at h i) by (intros i; unfold pool_at; now rewrite P).
  constructor.
  - intros i. rewrite P, PA. apply GP.
  - intros i I. rewrite P. now apply C.
  - intros i j I J N. rewrite !PA. apply GD; auto.
  - intros b. rewrite L. intros B. unfold block_in. rewrite P, PA. now apply GB.
  - now rewrite L.
Qed.
Lemma in_set_nat l i v x : In x (set_nat l i v) -> x = v \/ In x l.
Proof.
  revert i. induction l as [|y l IH]; intros [|i]; cbn; try tauto.
  - intros [<-|H]; auto.
  - intros [<-|H]; auto. apply IH in H. tauto.
Qed.
Lemma enter_cache_good h i : Good h -> mapped h i -> (i < length (pools h))%nat -> Good (enter_cache h i).
Proof.
  intros G M L. unfold enter_cache. destruct (Nat.ltb _ _).
  - apply (Good_mapped h); auto; cbn.
    + intros j J. apply in_app_iff in J as [J|[<-|[]]]; [now apply (g_cached h G)|exact L].
    + intros j [J|J]; [|now right]. cbn in J. apply in_app_iff in J as [J|[<-|[]]]; [now left|exact M].
  - destruct (_ <? _); [|exact G]. apply (Good_mapped h); auto; cbn.
    + intros j J. apply in_set_nat in J as [-> | J]; [exact L|now apply (g_cached h G)].
    + intros j [J|J]; [|now right]. cbn in J. apply in_set_nat in J as [-> | J]; [exact M|now left].
Qed.
Lemma enter_cache_same h i : pools (enter_cache h i) = pools h /\ live (enter_cache h i) = live h.
Proof. unfold enter_cache. destruct (Nat.ltb _ _); [auto|]. destruct (_ <? _); auto. Qed.

Lemma align_spec raw : 0 <= raw < two64 -> (align raw kMallocAlignment <? raw) = false ->
  raw <= align raw kMallocAlignment < two64.
Proof. unfold align, kMallocAlignment, u64, two64. intros R A. split; lia. Qed.
Lemma pool_bytes_spec page ask : 0 < page -> 0 <= ask < two64 -> 0 < pool_bytes page ask -> ask <= pool_bytes page ask.
Proof.
  unfold pool_bytes. intros P A. destruct (Z.ltb_spec ask kMinPoolSize); [lia|]. unfold align, u64.
  destruct (Z_lt_le_dec (ask + (page - 1)) two64) as [L|L].
  - rewrite (Z.mod_small (ask + (page - 1))) by lia. intros _.
    pose proof (Z.div_mod (ask + (page - 1)) page ltac:(lia)). pose proof (Z.mod_pos_bound (ask + (page - 1)) page ltac:(lia)). nia.
  - intros Q. exfalso. destruct (Z_lt_le_dec page two64) as [PL|PL].
    + rewrite <- (Z.mod_unique (ask + (page - 1)) two64 1 (ask + (page - 1) - two64)) in Q by (try left; lia).
      rewrite Z.div_small in Q by lia. lia.
    + pose proof (Z.mod_pos_bound (ask + (page - 1)) two64 eq_refl). rewrite Z.div_small in Q by lia. lia.
Qed.

Lemma allocate_ok page reply raw h : 0 < page -> Good h -> 0 <= raw < two64 ->
  honest h (pool_bytes page (align raw kMallocAlignment)) reply ->
  let '(h', a) := Allocate page (fun _ => reply) raw h in
  Good h' /\ a <> PoolOverrun /\
  match a with
  | Block b => raw <= b_bytes b /\ In b (live h') /\ live h' = b :: live h /\ block_in h' b
  | _ => live h' = live h
  end.
Proof.
  intros PG G R OS. unfold Allocate. destruct (align raw kMallocAlignment <? raw) eqn:AL.
  { split; [exact G|]. split; [discriminate|reflexivity]. }
  destruct (align_spec raw R AL) as [A1 A2]. set (bytes := align raw kMallocAlignment) in *.
  destruct (find_pool h bytes (cached h) None) as [i|] eqn:FP.
  - apply find_pool_spec in FP as [[I F]|F]; [|discriminate].
    destruct (alloc_in_good h i bytes G (or_introl (or_introl I)) (g_cached h G i I) ltac:(lia))
      as (h' & b & E & G' & BB & BP & LV & _). rewrite E.
    split; [exact G'|]. split; [discriminate|]. rewrite BB, LV. repeat split; auto; try (now left); apply (g_block h' G'); rewrite LV; now left.
  - destruct reply as [start|]; [|split; [exact G|split; [discriminate|reflexivity]]].
    destruct OS as (S1 & S2 & S3 & S4). set (size := pool_bytes page bytes) in *.
    assert (BS : bytes <= size) by (apply pool_bytes_spec; [exact PG|lia|exact S1]).
    set (np := {| p_start := start; p_ptr := start; p_end := start + size |}).
    set (h1 := {| pools := pools h ++ [np]; cached := cached h; live := live h |}).
    assert (PO : forall j, (j < length (pools h))%nat -> pool_at h1 j = pool_at h j).
    { intros j J. unfold pool_at, h1. cbn [pools]. now apply app_nth1. }
    assert (PN : pool_at h1 (length (pools h)) = np).
    { unfold pool_at, h1. cbn [pools]. rewrite app_nth2 by lia. now rewrite Nat.sub_diag. }
    assert (ML : forall j, mapped h j -> (j < length (pools h))%nat).
    { intros j [J|(b & B & <-)]; [now apply (g_cached h G)|apply (g_block h G b B)]. }
    assert (G1 : Good h1).
    { constructor.
      - intros j J. unfold h1 in J. cbn [pools] in J. rewrite app_length in J. cbn in J.
        destruct (Nat.eq_dec j (length (pools h))) as [->|N]; [rewrite PN; cbn; lia|]. rewrite PO by lia. apply (g_pool h G). lia.
      - intros j J. unfold h1. cbn. rewrite app_length. cbn. pose proof (g_cached h G j J). lia.
      - intros j k J K N. change (mapped h j) in J. change (mapped h k) in K. rewrite !PO by auto. now apply (g_disj h G).
      - intros b B. pose proof (g_block h G b B) as (B1 & B2). unfold block_in. rewrite PO by exact B1. unfold h1. cbn [pools].
        rewrite app_length. split; [cbn; lia|exact B2].
      - exact (g_apart h G). }
    assert (DJ : forall j, mapped h1 j -> disjoint_pools (pool_at h1 (length (pools h))) (pool_at h1 j)).
    { intros j J. change (mapped h j) in J. rewrite PN, PO by auto. specialize (S4 j J). unfold apart in S4. unfold disjoint_pools. cbn. lia. }
    destruct (alloc_in_good h1 (length (pools h)) bytes G1 (or_intror DJ)) as (h' & b & E & G' & BB & BP & LV & CV & LP & SE).
    { unfold h1. cbn. rewrite app_length. cbn. lia. }
    { rewrite PN. unfold bytesFree. cbn. lia. }
    rewrite E. destruct (enter_cache_same h' (length (pools h))) as [EP EL].
    assert (BI : block_in h' b) by (apply (g_block h' G'); rewrite LV; now left).
    split; [|split; [discriminate|]].
    + apply enter_cache_good; [exact G'| |].
      * right. exists b. split; [rewrite LV; now left|exact BP].
      * rewrite LP. unfold h1. cbn. rewrite app_length. cbn. lia.
    + rewrite EL, BB, LV. split; [exact A1|]. split; [now left|]. split; [reflexivity|].
      unfold block_in, pool_at in *. rewrite EP. exact BI.
Qed.

Lemma remove_in {A} k (l : list A) x : In x (remove_nth k l) -> In x l.
Proof. revert k. induction l as [|y l IH]; intros [|k]; cbn; auto. intros [H|H]; [now left|right; eapply IH, H]. Qed.
Lemma remove_pairwise {A} (R : A -> A -> Prop) k l : pairwise R l -> pairwise R (remove_nth k l).
Proof.
  revert k. induction l as [|y l IH]; intros [|k]; cbn; auto; intros [H1 H2]; [exact H2|]. split; [|now apply IH].
  intros z Z. apply H1. eapply remove_in, Z.
Qed.
Lemma drop_good h k : Good h -> Good (Drop k h).
Proof.
  intros [GP GC GD GB GA]. constructor; cbn; auto.
  - intros i j I J N. change (pool_at (Drop k h)) with (pool_at h).
    apply GD; auto; [destruct I as [I|(b & B & E)]|destruct J as [J|(b & B & E)]]; (now left) || (right; exists b; split; [|exact E]; eapply remove_in, B).
  - intros b B. apply GB. eapply remove_in, B.
  - now apply remove_pairwise.
Qed.
Lemma reachable_good page h : 0 < page -> reachable page h -> Good h.
Proof.
  intros P. induction 1 as [|h raw reply R IH RW H|h k R IH].
  - constructor; cbn; try tauto; [intros i I; lia|]. intros i j [[]|(b & [] & _)].
  - pose proof (allocate_ok page reply raw h P IH RW H) as A. destruct (Allocate _ _ _ _) as [h' a]. apply A.
  - now apply drop_good.
Qed.

Lemma pairwise_nth {A} (R : A -> A -> Prop) l : pairwise R l -> forall i j x y, (i < j)%nat ->
  nth_error l i = Some x -> nth_error l j = Some y -> R x y.
Proof.
  induction l as [|z l IH]; intros P i j x y L I J; [destruct i; discriminate|]. destruct P as [P1 P2].
  destruct j as [|j]; [lia|]. cbn in J. destruct i as [|i]; cbn in I.
  - injection I as <-. apply P1. eapply nth_error_In, J.
  - apply (IH P2 i j); auto. lia.
Qed.
Lemma live_apart page h : 0 < page -> reachable page h -> forall i j b c, i <> j ->
  nth_error (live h) i = Some b -> nth_error (live h) j = Some c -> blocks_apart b c.
Proof.
  intros P R i j b c N I J. pose proof (g_apart h (reachable_good page h P R)) as PW.
  destruct (Nat.lt_ge_cases i j) as [L|L].
  - eapply pairwise_nth; eassumption.
  - assert (blocks_apart c b) as Q by (eapply (pairwise_nth _ _ PW j i); eauto; lia).
    unfold blocks_apart, apart in *. tauto.
Qed.
Lemma alloc_result page reply raw h : 0 < page -> reachable page h -> 0 <= raw < two64 ->
  honest h (pool_bytes page (align raw kMallocAlignment)) reply ->
  let '(h', a) := Allocate page (fun _ => reply) raw h in
  a <> PoolOverrun /\
  forall b, a = Block b -> raw <= b_bytes b /\ live h' = b :: live h /\
    p_start (pool_at h' (b_pool b)) <= b_address b /\ b_address b + b_bytes b <= p_end (pool_at h' (b_pool b)).
Proof.
  intros P R RW H. pose proof (allocate_ok page reply raw h P (reachable_good page h P R) RW H) as A.
  destruct (Allocate _ _ _ _) as [h' a]. destruct A as (G & N & A). split; [exact N|]. intros b ->.
  destruct A as (A1 & A2 & A3 & A4 & A5 & A6 & A7). split; [exact A1|]. split; [exact A3|]. split; [exact A5|].
  destruct (g_pool h' G (b_pool b) A4) as (_ & Q & _). lia.
Qed.

(* Two allocations, one of them large enough for a pool of its own, and a release. *)
Example code_example :
  let h1 := fst (Allocate 4096 (fun _ => Some 65536) 100 no_code) in
  let h2 := fst (Allocate 4096 (fun _ => Some 4194304) 2000000 h1) in
  reachable 4096 (Drop 1 h2) /\ length (live h2) = 2%nat.
Proof.
  cbn zeta. split; [|reflexivity]. apply RDrop. apply RAlloc; [apply RAlloc; [apply RStart| |]| |].
  - unfold two64. lia.
  - repeat split; try reflexivity; try discriminate. intros i [[]|(b & [] & _)].
  - unfold two64. lia.
  - repeat split; try reflexivity; try discriminate. intros i M.
    assert (i = 0%nat) as -> by (destruct M as [[M|[]]|(b & [<-|[]] & E)]; auto). vm_compute. right. discriminate.
Qed.

Example string_example : StringToCells [104; 101; 108; 108; 111] = [1819043176; 111] /\ Forall is_byte [104; 101; 108; 108; 111].
Proof. split; [reflexivity|]. repeat (apply Forall_cons; [unfold is_byte; lia|]). apply Forall_nil. Qed.
Example error_example : exists s, In (14, s) error_text /\ ~ known_code 35 /\ ~ known_code (-1).
Proof. eexists. split; [cbn; tauto|]. unfold known_code. cbn. lia. Qed.
