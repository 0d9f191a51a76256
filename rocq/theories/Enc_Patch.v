From Coq Require Import Lia ZifyBool.
From Verif Require Import Base Enc_Model Enc_Spec Enc_Meant Enc_Stream Enc_Label Enc_LabelSpec.
Ltac Zify.zify_post_hook ::= Z.div_mod_to_equations.

(* The code as pieces, newest first: finished, or a jump that waits for its label. *)
Inductive piece := Done (bs : list Z) | Hole (op : list Z) (l : nat).
Definition psize (p : piece) : nat := match p with Done bs => length bs | Hole op _ => length op + 4 end.
Fixpoint size (ps : list piece) : nat := match ps with [] => O | p :: r => (size r + psize p)%nat end.
Fixpoint last_of (l : nat) (ps : list piece) : Z :=
  match ps with
  | [] => 0
  | Done _ :: r => last_of l r
  | Hole op k :: r => if Nat.eqb l k then 2 * (Z.of_nat (size r) + Z.of_nat (length op) + 4) else last_of l r
  end.
Fixpoint render (ps : list piece) : list Z :=
  match ps with
  | [] => []
  | Done bs :: r => render r ++ bs
  | Hole op l :: r => render r ++ op ++ le32 (last_of l r)
  end.
Definition fill1 (t : Z) (l : nat) (at_ : nat) (p : piece) : piece :=
  match p with
  | Done bs => Done bs
  | Hole op k => if Nat.eqb l k then Done (op ++ le32 (t - (Z.of_nat at_ + Z.of_nat (length op) + 4))) else Hole op k
  end.
Fixpoint fill (t : Z) (l : nat) (ps : list piece) : list piece :=
  match ps with [] => [] | p :: r => fill1 t l (size r) p :: fill t l r end.

Lemma fill1_size : forall t l a p, psize (fill1 t l a p) = psize p.
Proof. intros t l a [bs|op k]; cbn [fill1]; [reflexivity|]. destruct (Nat.eqb l k); [|reflexivity]. cbn [psize]. rewrite app_length. reflexivity. Qed.
Lemma fill_size : forall t l ps, size (fill t l ps) = size ps.
Proof. induction ps as [|p r IH]; [reflexivity|]. cbn [fill size]. rewrite IH, fill1_size. reflexivity. Qed.
Lemma render_size : forall ps, length (render ps) = size ps.
Proof.
  induction ps as [|[bs|op k] r IH]; [reflexivity| |]; cbn [render size psize]; rewrite ?app_length, IH; [reflexivity|].
  cbn [le32 length]. reflexivity.
Qed.
Lemma fill_last : forall t l k ps, k <> l -> last_of k (fill t l ps) = last_of k ps.
Proof.
  intros t l k ps N. induction ps as [|[bs|op m] r IH]; [reflexivity| |].
  - exact IH.
  - cbn [fill fill1]. destruct (Nat.eqb l m) eqn:E.
    + cbn [last_of]. apply Nat.eqb_eq in E. subst m. destruct (Nat.eqb k l) eqn:E2; [apply Nat.eqb_eq in E2; contradiction | exact IH].
    + cbn [last_of]. destruct (Nat.eqb k m); [rewrite fill_size; reflexivity | exact IH].
Qed.
Lemma last_bound : forall l ps, 0 <= last_of l ps <= 2 * Z.of_nat (size ps).
Proof.
  intros l ps. induction ps as [|[bs|op m] r IH]; cbn [last_of size psize]; [lia | lia |].
  destruct (Nat.eqb l m); lia.
Qed.
Lemma last_even : forall l ps, Z.odd (last_of l ps) = false.
Proof.
  intros l ps. induction ps as [|[bs|op m] r IH]; cbn [last_of]; [reflexivity | exact IH |].
  destruct (Nat.eqb l m); [|exact IH]. rewrite Z.odd_mul. reflexivity.
Qed.
Lemma read_at : forall a v t, 0 <= v < two32 -> read32 (a ++ le32 v ++ t) (Z.of_nat (length a)) = v.
Proof.
  intros a v t V. unfold read32.
  assert (N : forall i, 0 <= i -> nth (Z.to_nat (Z.of_nat (length a) + i)) (a ++ le32 v ++ t) 0 = nth (Z.to_nat i) (le32 v ++ t) 0).
  { intros i I. rewrite app_nth2 by lia. f_equal. lia. }
  rewrite !N by lia. clear N. change (Z.to_nat 0) with 0%nat. change (Z.to_nat 1) with 1%nat. change (Z.to_nat 2) with 2%nat.
  change (Z.to_nat 3) with 3%nat. cbn [le32 app nth]. unfold two32 in V. lia.
Qed.
Lemma write_at : forall a v w t, write32 (a ++ le32 v ++ t) (Z.of_nat (length a)) w = a ++ le32 w ++ t.
Proof.
  intros a v w t. unfold write32. rewrite Nat2Z.id. f_equal.
  - rewrite firstn_app, firstn_all, Nat.sub_diag. cbn [firstn]. apply app_nil_r.
  - f_equal. rewrite skipn_app, skipn_all2 by lia. replace (length a + 4 - length a)%nat with 4%nat by lia. reflexivity.
Qed.
Definition ops_ok (ps : list piece) : Prop := forall op l, In (Hole op l) ps -> (1 <= length op)%nat.
Lemma patch_fill : forall t l ps tail fuel, Z.of_nat (size ps) < two31 -> ops_ok ps -> (size ps < fuel)%nat ->
  patch fuel t (last_of l ps) (render ps ++ tail) = Some (render (fill t l ps) ++ tail).
Proof.
  intros t l ps. induction ps as [|p r IH]; intros tail fuel B OK F.
  - destruct fuel; [lia|]. reflexivity.
  - assert (OKr : ops_ok r) by (intros op k H; apply (OK op k); right; exact H).
    assert (Br : Z.of_nat (size r) < two31) by (cbn [size] in B; lia). cbn [size] in F.
    destruct p as [bs|op k].
    + cbn [last_of render fill fill1]. rewrite <- !app_assoc. apply IH; [exact Br | exact OKr | cbn [psize] in F; lia].
    + cbn [last_of render fill fill1]. destruct (Nat.eqb l k) eqn:E.
      * apply Nat.eqb_eq in E. subst k. destruct fuel as [|fuel]; [lia|]. cbn [patch].
        assert (L := OK op l (or_introl eq_refl)). set (o := Z.of_nat (size r) + Z.of_nat (length op) + 4).
        assert (Z0 : (2 * o =? 0) = false) by lia. rewrite Z0. unfold to_offset. replace (2 * o / 2) with o by lia.
        assert (O5 : (o <? 5) = false) by lia. rewrite O5.
        assert (P : o - 4 = Z.of_nat (length (render r ++ op))) by (rewrite app_length, render_size; unfold o; lia).
        rewrite P. rewrite <- app_assoc. rewrite <- app_assoc. rewrite (app_assoc (render r) op).
        assert (LB := last_bound l r).
        rewrite read_at by (cbn [size psize] in B; unfold two31, two32 in *; lia). rewrite write_at.
        rewrite <- !app_assoc. apply IH; [exact Br | exact OKr | cbn [psize] in F; lia].
      * cbn [render]. rewrite fill_last by (intros ->; rewrite Nat.eqb_refl in E; discriminate E).
        rewrite <- !app_assoc. apply IH; [exact Br | exact OKr | cbn [psize] in F; lia].
Qed.

(* ---- The state and its pieces ---- *)
Definition env := nat -> option nat.
Definition fits_piece (E : env) (at_ : nat) (o : step) (p : piece) : Prop :=
  match o with
  | Bytes bs => p = Done bs
  | Bind l => p = Done [] /\ E l = Some at_
  | Jump j l => (E l = None /\ p = Hole (long_opcode j) l)
      \/ exists b t d, p = Done b /\ E l = Some t /\ (forall rest, decode (b ++ rest) = Some (jumps j d, rest))
           /\ Z.of_nat (at_ + length b) + d = Z.of_nat t
  end.
(* Both lists newest first. *)
Fixpoint fitting (E : env) (os : list step) (ps : list piece) : Prop :=
  match os, ps with
  | [], [] => True
  | o :: os', p :: ps' => fits_piece E (size ps') o p /\ fitting E os' ps'
  | _, _ => False
  end.
Record inv (os : list step) (s : code_buffer) (E : env) (ps : list piece) : Prop := {
  i_code : c_bytes s = render ps;
  i_lab : forall l, c_labels s l = match E l with Some t => Z.of_nat t * 2 + 1 | None => last_of l ps end;
  i_env : forall l t, E l = Some t -> (t <= size ps)%nat /\ In (Bind l) os;
  i_fit : fitting E os ps }.
Definition jumps_ok (os : list step) : Prop := forall j l, In (Jump j l) os -> ok_jump j = true.
Lemma long_right : forall j p t, ok_jump j = true -> 0 <= p < two31 / 2 -> 0 <= t < two31 / 2 ->
  exists d, (forall rest, decode (long_jump j p t ++ rest) = Some (jumps j d, rest))
    /\ p + Z.of_nat (length (long_jump j p t)) + d = t.
Proof.
  intros j p t J P T.
  destruct j as [| | |cc|cc];
    [exact (jump_right JCall p t J P T) | exact (jump_right JJmp32 p t J P T) | exact (jump_right JJmp32 p t J P T)
    | exact (jump_right (JJ32 cc) p t J P T) | exact (jump_right (JJ32 cc) p t J P T)].
Qed.
Lemma fitting_len : forall E os ps, fitting E os ps -> length ps = length os.
Proof. induction os as [|o os IH]; intros [|p ps] H; cbn [fitting] in H; try contradiction; [reflexivity|]. cbn [length]. f_equal. apply IH, H. Qed.
Lemma fitting_ops : forall E os ps, fitting E os ps -> ops_ok ps.
Proof.
  induction os as [|o os IH]; intros [|p ps] H op l I; cbn [fitting] in H; try contradiction.
  destruct H as [A B]. destruct I as [-> |I]; [|exact (IH ps B op l I)].
  destruct o as [bs|j k|k]; cbn [fits_piece] in A; [discriminate A | | destruct A as [A _]; discriminate A].
  destruct A as [(_ & A)|(b & t & d & A & _)]; [|discriminate A]. injection A as -> ->. destruct j; cbn [long_opcode length]; lia.
Qed.
Lemma fitting_holes : forall E os ps op l, fitting E os ps -> In (Hole op l) ps -> E l = None.
Proof.
  induction os as [|o os IH]; intros [|p ps] op l H I; cbn [fitting] in H; try contradiction.
  destruct H as [A B]. destruct I as [-> |I]; [|exact (IH ps op l B I)].
  destruct o as [bs|j k|k]; cbn [fits_piece] in A; [discriminate A | | destruct A as [A _]; discriminate A].
  destruct A as [(A1 & A)|(b & t & d & A & _)]; [|discriminate A]. injection A as _ ->. exact A1.
Qed.
Definition upd (E : env) (l t : nat) : env := fun k => if Nat.eqb k l then Some t else E k.
Lemma fitting_fill : forall E t l os ps, E l = None -> jumps_ok os -> Z.of_nat (size ps) < two31 / 2 -> Z.of_nat t < two31 / 2 ->
  fitting E os ps -> fitting (upd E l t) os (fill (Z.of_nat t) l ps).
Proof.
  intros E t l os. induction os as [|o os IH]; intros [|p ps] N J B T H; cbn [fitting] in H; try contradiction; [exact Logic.I|].
  destruct H as [A H]. cbn [fill fitting]. rewrite fill_size. cbn [size] in B. split.
  2: { apply IH; [exact N | intros j k I; apply (J j k); right; exact I | lia | exact T | exact H]. }
  destruct o as [bs|j k|k]; cbn [fits_piece] in *.
  - subst p. reflexivity.
  - unfold upd. destruct A as [(A1 & ->)|(b & u & d & -> & A1 & A2 & A3)].
    + cbn [fill1]. destruct (Nat.eqb l k) eqn:E1.
      * apply Nat.eqb_eq in E1. subst k. rewrite Nat.eqb_refl. right.
        destruct (long_right j (Z.of_nat (size ps)) (Z.of_nat t)) as (d & D1 & D2);
          [apply (J j l); left; reflexivity | lia | lia |].
        exists (long_jump j (Z.of_nat (size ps)) (Z.of_nat t)), t, d.
        split; [reflexivity|]. split; [reflexivity|]. split; [exact D1 | lia].
      * left. rewrite Nat.eqb_sym, E1. split; [exact A1 | reflexivity].
    + right. exists b, u, d. split; [reflexivity|]. split; [|split; [exact A2 | exact A3]].
      destruct (Nat.eqb k l) eqn:E1; [|exact A1]. apply Nat.eqb_eq in E1. subst k. rewrite N in A1. discriminate A1.
  - destruct A as [-> A]. split; [reflexivity|]. unfold upd. destruct (Nat.eqb k l) eqn:E1; [|exact A].
    apply Nat.eqb_eq in E1. subst k. rewrite N in A. discriminate A.
Qed.

Lemma odd_env : forall os s E ps l, inv os s E ps -> is_bound (c_labels s l) = match E l with Some _ => true | None => false end.
Proof.
  intros os s E ps l I. rewrite (i_lab _ _ _ _ I l). unfold is_bound. destruct (E l) as [t|]; [|apply last_even].
  rewrite Z.odd_add, Z.odd_mul. cbn. rewrite Bool.andb_false_r. reflexivity.
Qed.
Lemma step_inv : forall os s E ps o s', inv os s E ps -> jumps_ok (o :: os) -> Z.of_nat (length (c_bytes s)) < two31 / 2 ->
  do_step o s = Some s' -> exists E' ps', inv (o :: os) s' E' ps'.
Proof.
  intros os s E ps o s' I J B H. assert (SZ : length (c_bytes s) = size ps) by (rewrite (i_code _ _ _ _ I); apply render_size).
  destruct o as [bs|j l|l]; cbn [do_step] in H.
  - injection H as <-. exists E, (Done bs :: ps). constructor.
    + cbn [c_bytes render]. rewrite (i_code _ _ _ _ I). reflexivity.
    + exact (i_lab _ _ _ _ I).
    + intros l t A. destruct (i_env _ _ _ _ I l t A). cbn [size psize]. split; [lia | right; assumption].
    + cbn [fitting fits_piece]. split; [reflexivity | exact (i_fit _ _ _ _ I)].
  - unfold jump_label in H. rewrite (odd_env _ _ _ _ l I) in H. destruct (E l) as [t|] eqn:EL.
    + injection H as <-. rewrite (i_lab _ _ _ _ I l), EL. unfold to_offset. replace ((Z.of_nat t * 2 + 1) / 2) with (Z.of_nat t) by lia.
      unfold position. rewrite SZ. destruct (i_env _ _ _ _ I l t EL) as [TS _].
      destruct (jump_right j (Z.of_nat (size ps)) (Z.of_nat t)) as (d & D1 & D2);
        [apply (J j l); left; reflexivity | lia | lia |].
      exists E, (Done (jump_to j (Z.of_nat (size ps)) (Z.of_nat t)) :: ps). constructor.
      * cbn [c_bytes render]. rewrite (i_code _ _ _ _ I). reflexivity.
      * exact (i_lab _ _ _ _ I).
      * intros k u A. destruct (i_env _ _ _ _ I k u A). cbn [size psize]. split; [lia | right; assumption].
      * cbn [fitting fits_piece]. split; [|exact (i_fit _ _ _ _ I)]. right. exists (jump_to j (Z.of_nat (size ps)) (Z.of_nat t)), t, d.
        split; [reflexivity|]. split; [exact EL|]. split; [exact D1 | lia].
    + unfold position in H. rewrite SZ in H.
      destruct (_ <? _) eqn:LT in H; [discriminate H|]. injection H as <-.
      exists E, (Hole (long_opcode j) l :: ps). constructor.
      * cbn [c_bytes render]. rewrite (i_code _ _ _ _ I), (i_lab _ _ _ _ I l), EL. reflexivity.
      * intros k. cbn [c_labels last_of]. unfold set_label. destruct (Nat.eqb k l) eqn:E1.
        -- apply Nat.eqb_eq in E1. subst k. rewrite EL. lia.
        -- exact (i_lab _ _ _ _ I k).
      * intros k u A. destruct (i_env _ _ _ _ I k u A). cbn [size psize]. split; [lia | right; assumption].
      * cbn [fitting fits_piece]. split; [|exact (i_fit _ _ _ _ I)]. left. split; [exact EL | reflexivity].
  - unfold bind_label in H. rewrite (odd_env _ _ _ _ l I) in H. destruct (E l) as [t|] eqn:EL; [discriminate H|].
    rewrite (i_lab _ _ _ _ I l), EL in H. unfold position in H. rewrite SZ in H.
    assert (TW : two31 / 2 < two31) by reflexivity.
    assert (PF := patch_fill (Z.of_nat (size ps)) l ps []).
    rewrite !app_nil_r in PF. rewrite (i_code _ _ _ _ I) in H.
    assert (JO : jumps_ok os) by (intros j k A; apply (J j k); right; exact A).
    rewrite PF in H; [|lia | exact (fitting_ops _ _ _ (i_fit _ _ _ _ I)) | lia]. injection H as <-.
    exists (upd E l (size ps)), (Done [] :: fill (Z.of_nat (size ps)) l ps). constructor.
    + cbn [c_bytes render]. rewrite app_nil_r. reflexivity.
    + intros k. cbn [c_labels last_of]. unfold set_label, upd. destruct (Nat.eqb k l) eqn:E1; [reflexivity|].
      rewrite fill_last by (intros ->; rewrite Nat.eqb_refl in E1; discriminate E1). exact (i_lab _ _ _ _ I k).
    + intros k u A. unfold upd in A. cbn [size psize length]. rewrite fill_size. destruct (Nat.eqb k l) eqn:E1.
      * apply Nat.eqb_eq in E1. subst k. injection A as <-. split; [lia | left; reflexivity].
      * destruct (i_env _ _ _ _ I k u A). split; [lia | right; assumption].
    + cbn [fitting fits_piece]. rewrite fill_size. split.
      * split; [reflexivity|]. unfold upd. rewrite Nat.eqb_refl. reflexivity.
      * apply fitting_fill; [exact EL | exact JO | lia | lia | exact (i_fit _ _ _ _ I)].
Qed.

Lemma step_grows : forall o s s', do_step o s = Some s' -> (length (c_bytes s) <= length (c_bytes s'))%nat.
Proof.
  assert (W : forall c p v, 0 <= p -> (length c <= length (write32 c p v))%nat).
  { intros c p v P. unfold write32. rewrite !app_length, firstn_length, skipn_length. cbn [le32 length]. lia. }
  assert (PT : forall f pos st c c', patch f pos st c = Some c' -> (length c <= length c')%nat).
  { induction f as [|f IH]; intros pos st c c' H; [discriminate H|]. cbn [patch] in H. destruct (st =? 0); [injection H as <-; lia|].
    destruct (to_offset st <? 5) eqn:L; [discriminate H|]. apply IH in H. assert (X := W c (to_offset st - 4) (pos - to_offset st)). lia. }
  intros o s s' H. destruct o as [bs|j l|l]; cbn [do_step] in H.
  - injection H as <-. cbn [c_bytes]. rewrite app_length. lia.
  - unfold jump_label in H. destruct (is_bound _); [injection H as <-; cbn [c_bytes]; rewrite app_length; lia|].
    destruct (_ <? _); [discriminate H|]. injection H as <-. cbn [c_bytes]. rewrite app_length. lia.
  - unfold bind_label in H. destruct (is_bound _); [discriminate H|]. destruct (patch _ _ _ _) as [c|] eqn:P; [|discriminate H].
    injection H as <-. apply PT in P. exact P.
Qed.
Lemma steps_grow : forall l s s', do_steps l s = Some s' -> (length (c_bytes s) <= length (c_bytes s'))%nat.
Proof.
  induction l as [|o l IH]; intros s s' H; cbn [do_steps] in H; [injection H as <-; lia|].
  destruct (do_step o s) as [s1|] eqn:E; [|discriminate H]. apply step_grows in E. apply IH in H. lia.
Qed.
Lemma steps_inv : forall l os s E ps s', inv os s E ps -> jumps_ok (rev l ++ os) -> Z.of_nat (length (c_bytes s')) < two31 / 2 ->
  do_steps l s = Some s' -> exists E' ps', inv (rev l ++ os) s' E' ps'.
Proof.
  induction l as [|o l IH]; intros os s E ps s' I J B H; cbn [do_steps] in H; [injection H as <-; exists E, ps; exact I|].
  destruct (do_step o s) as [s1|] eqn:D; [|discriminate H].
  assert (G := step_grows _ _ _ D). assert (G2 := steps_grow _ _ _ H).
  cbn [rev] in J |- *. rewrite <- app_assoc in J |- *. cbn [app] in J |- *.
  destruct (step_inv os s E ps o s1 I) as (E1 & ps1 & I1); [| lia | exact D |].
  - intros j k A. apply (J j k). apply in_or_app. right. exact A.
  - exact (IH (o :: os) s1 E1 ps1 s' I1 J B H).
Qed.

(* ---- Pieces, newest first, as places of the steps, oldest first ---- *)
Definition start_of (ps : list piece) (k : nat) : nat := size (skipn (length ps - k) ps).
Lemma start_old : forall p ps k, (k <= length ps)%nat -> start_of (p :: ps) k = start_of ps k.
Proof.
  intros p ps k K. unfold start_of. cbn [length]. replace (S (length ps) - k)%nat with (S (length ps - k)) by lia. reflexivity.
Qed.
Lemma start_all : forall ps k, (length ps <= k)%nat -> start_of ps k = size ps.
Proof. intros ps k K. unfold start_of. replace (length ps - k)%nat with 0%nat by lia. reflexivity. Qed.
Lemma slice_app : forall c x a b, (a <= b <= length c)%nat -> slice (c ++ x) a b = slice c a b.
Proof.
  intros c x a b H. unfold slice. rewrite skipn_app. rewrite firstn_app, skipn_length.
  replace (b - a - (length c - a))%nat with 0%nat by lia. rewrite firstn_O. apply app_nil_r.
Qed.
Lemma slice_last : forall c x, slice (c ++ x) (length c) (length c + length x) = x.
Proof.
  intros c x. unfold slice. rewrite skipn_app, skipn_all, Nat.sub_diag. cbn [app skipn].
  replace (length c + length x - length c)%nat with (length x) by lia. apply firstn_all.
Qed.
Lemma start_le : forall ps k, (start_of ps k <= size ps)%nat.
Proof.
  assert (G : forall ps n, (size (skipn n ps) <= size ps)%nat).
  { induction ps as [|p ps IH]; intros [|n]; cbn [skipn size]; try lia. specialize (IH n). lia. }
  intros ps k. apply G.
Qed.
Lemma start_mono : forall ps k, (start_of ps k <= start_of ps (S k))%nat.
Proof.
  induction ps as [|p ps IH]; intros k; [reflexivity|]. destruct (Nat.leb (S k) (length ps)) eqn:L.
  - apply Nat.leb_le in L. rewrite !start_old by lia. apply IH.
  - apply Nat.leb_gt in L. rewrite (start_all (p :: ps) (S k)) by (cbn [length]; lia). apply start_le.
Qed.
Lemma nth_snoc : forall A (l : list A) a k x, nth_error (l ++ [a]) k = Some x ->
  (k < length l)%nat /\ nth_error l k = Some x \/ k = length l /\ x = a.
Proof.
  intros A l a k x H. destruct (Nat.ltb k (length l)) eqn:L.
  - apply Nat.ltb_lt in L. rewrite nth_error_app1 in H by exact L. left. split; assumption.
  - apply Nat.ltb_ge in L. rewrite nth_error_app2 in H by exact L. destruct (k - length l)%nat as [|[|n]] eqn:D; cbn in H; try discriminate H.
    injection H as <-. right. split; [lia | reflexivity].
Qed.
(* Pieces without holes. *)
Lemma places : forall E os ps, fitting E os ps -> (forall op l, ~ In (Hole op l) ps) ->
  forall k o, nth_error (rev os) k = Some o ->
  (S k <= length ps)%nat /\ exists b, slice (render ps) (start_of ps k) (start_of ps (S k)) = b /\ fits_piece E (start_of ps k) o (Done b)
    /\ start_of ps (S k) = (start_of ps k + length b)%nat.
Proof.
  intros E. induction os as [|o os IH]; intros [|p ps] F NH k x H; cbn [fitting] in F; try contradiction.
  - destruct k; discriminate H.
  - destruct F as [A F]. assert (LEN := fitting_len _ _ _ F). cbn [rev] in H.
    assert (NH' : forall op l, ~ In (Hole op l) ps) by (intros op l I; apply (NH op l); right; exact I).
    destruct p as [bs|op l]; [|destruct (NH op l (or_introl eq_refl))].
    apply nth_snoc in H. rewrite rev_length in H. destruct H as [[K H]|[-> ->]].
    + destruct (IH ps F NH' k x H) as (B & b & B1 & B2 & B3). split; [cbn [length]; lia|]. exists b. rewrite !start_old by lia. split; [|split; assumption].
      cbn [render]. rewrite slice_app; [exact B1|]. split; [apply start_mono | rewrite render_size; apply start_le].
    + split; [cbn [length]; lia|]. exists bs. rewrite start_old by lia. rewrite (start_all ps) by lia.
      rewrite (start_all (Done bs :: ps)) by (cbn [length]; lia). cbn [size psize render]. split; [|split; [exact A | reflexivity]].
      rewrite <- (render_size ps). apply slice_last.
Qed.
Theorem labels_right : forall steps s, do_steps steps new_code = Some s -> closed steps -> Z.of_nat (length (c_bytes s)) < two31 / 2 ->
  exists start, laid steps (c_bytes s) start.
Proof.
  intros steps s H C B.
  assert (J : jumps_ok (rev steps ++ [])).
  { intros j l A. rewrite app_nil_r in A. apply in_rev in A. exact (proj1 (C j l A)). }
  destruct (steps_inv steps [] new_code (fun _ => None) [] s) as (E & ps & I); [|exact J|exact B|exact H|].
  { constructor; [reflexivity | intros l; reflexivity | intros l t A; discriminate A | exact Logic.I]. }
  rewrite app_nil_r in I. assert (F := i_fit _ _ _ _ I). assert (LEN := fitting_len _ _ _ F). rewrite rev_length in LEN.
  assert (BOUND : forall l, In (Bind l) steps -> exists t, E l = Some t).
  { intros l A. apply in_rev in A. clear - F A. revert ps F. induction (rev steps) as [|o os IH]; intros [|p ps] F; cbn [fitting] in F; try contradiction.
    destruct F as [F1 F2]. destruct A as [-> |A]; [exists (size ps); exact (proj2 F1) | exact (IH A ps F2)]. }
  assert (NH : forall op l, ~ In (Hole op l) ps).
  { intros op l A. assert (N := fitting_holes _ _ _ _ _ F A).
    assert (X : exists j, In (Jump j l) steps).
    { assert (X : exists j, In (Jump j l) (rev steps)); [|destruct X as [j X]; exists j; apply in_rev; exact X].
      clear - F A. revert ps F A. induction (rev steps) as [|o os IH]; intros [|p ps] F A; cbn [fitting] in F; try contradiction.
      destruct F as [F1 F2]. destruct A as [-> |A]; [|destruct (IH ps F2 A) as [j X]; exists j; right; exact X].
      destruct o as [bs|j k|k]; cbn [fits_piece] in F1; [discriminate F1 | | destruct F1 as [F1 _]; discriminate F1].
      destruct F1 as [(_ & F1)|(b & t & d & F1 & _)]; [|discriminate F1]. injection F1 as _ ->. exists j. left. reflexivity. }
    destruct X as [j X]. destruct (BOUND l (proj2 (C j l X))) as [t T]. rewrite N in T. discriminate T. }
  assert (P := places E (rev steps) ps F NH). rewrite rev_involutive in P.
  exists (start_of ps). split; [|split].
  - unfold start_of. rewrite Nat.sub_0_r, skipn_all. reflexivity.
  - rewrite start_all by lia. rewrite (i_code _ _ _ _ I), render_size. reflexivity.
  - intros k o K. split; [apply start_mono|]. destruct (P k o K) as (KL & b & B1 & B2 & B3). rewrite (i_code _ _ _ _ I).
    destruct o as [bs|j l|l]; cbn [fits_piece] in B2.
    + rewrite B1. injection B2 as ->. reflexivity.
    + destruct B2 as [(_ & B2)|(b' & t & d & B2 & T & D1 & D2)]; [discriminate B2|]. injection B2 as <-.
      assert (IB := proj2 (i_env _ _ _ _ I l t T)). apply in_rev in IB. apply In_nth_error in IB. destruct IB as [m M].
      exists m, d. split; [exact M|]. rewrite B1. split; [exact D1|].
      destruct (P m (Bind l) M) as (_ & bm & _ & BM & _). cbn [fits_piece] in BM. destruct BM as [_ BM]. rewrite T in BM. injection BM as ->.
      rewrite B3. exact D2.
    + destruct B2 as [B2 _]. injection B2 as ->. rewrite B3. cbn [length]. lia.
Qed.

(* ---- No assertion fails ---- *)
Lemma long_len : forall j, (length (long_opcode j) <= 2)%nat.
Proof. intros j. destruct j; cbn [long_opcode length]; lia. Qed.
Lemma jump_len : forall j p t, (length (jump_to j p t) <= 6)%nat.
Proof.
  intros j p t. assert (L := long_len j). unfold jump_to, long_jump.
  destruct (short_opcode j); [destruct (is_i8 _); [cbn [length]; lia|]|]; rewrite app_length; cbn [le32 length]; lia.
Qed.
Lemma step_done : forall os s E ps o, inv os s E ps -> jumps_ok (o :: os) ->
  Z.of_nat (length (c_bytes s)) + step_size o < two31 / 2 -> (forall l, o = Bind l -> ~ In (Bind l) os) ->
  exists s', do_step o s = Some s' /\ Z.of_nat (length (c_bytes s')) <= Z.of_nat (length (c_bytes s)) + step_size o.
Proof.
  intros os s E ps o I J B N. assert (SZ : length (c_bytes s) = size ps) by (rewrite (i_code _ _ _ _ I); apply render_size).
  destruct o as [bs|j l|l]; cbn [do_step step_size] in *.
  - eexists. split; [reflexivity|]. cbn [c_bytes]. rewrite app_length. lia.
  - unfold jump_label. destruct (is_bound _).
    + eexists. split; [reflexivity|]. cbn [c_bytes]. rewrite app_length.
      assert (JL := jump_len j (position s) (to_offset (c_labels s l))). lia.
    + assert (JL := long_len j). assert (A : ((two31 - 1) / 2 <? position s + Z.of_nat (length (long_opcode j)) + 4) = false).
      { change ((two31 - 1) / 2) with 1073741823. change (two31 / 2) with 1073741824 in B. unfold position. lia. }
      rewrite A. eexists. split; [reflexivity|]. cbn [c_bytes]. rewrite !app_length. cbn [le32 length]. lia.
  - unfold bind_label. rewrite (odd_env _ _ _ _ l I). destruct (E l) as [t|] eqn:EL.
    { destruct (N l eq_refl (proj2 (i_env _ _ _ _ I l t EL))). }
    rewrite (i_lab _ _ _ _ I l), EL. unfold position. rewrite SZ.
    assert (TW : two31 / 2 < two31) by reflexivity.
    assert (PF := patch_fill (Z.of_nat (size ps)) l ps []). rewrite !app_nil_r in PF. rewrite (i_code _ _ _ _ I).
    rewrite PF; [|lia | exact (fitting_ops _ _ _ (i_fit _ _ _ _ I)) | lia]. eexists. split; [reflexivity|].
    cbn [c_bytes]. rewrite render_size, fill_size. lia.
Qed.
Lemma size_pos : forall l, 0 <= steps_size l.
Proof. induction l as [|o l IH]; cbn [steps_size]; [lia|]. destruct o; cbn [step_size]; lia. Qed.
Lemma steps_done : forall l os s E ps, inv os s E ps -> jumps_ok (rev l ++ os) ->
  Z.of_nat (length (c_bytes s)) + steps_size l < two31 / 2 -> NoDup (binds l) -> (forall k, In (Bind k) l -> ~ In (Bind k) os) ->
  exists s', do_steps l s = Some s' /\ Z.of_nat (length (c_bytes s')) < two31 / 2.
Proof.
  induction l as [|o l IH]; intros os s E ps I J B ND N; cbn [do_steps steps_size] in *; [exists s; split; [reflexivity | lia]|].
  assert (SP := size_pos l). cbn [rev] in J. rewrite <- app_assoc in J. cbn [app] in J.
  assert (J1 : jumps_ok (o :: os)) by (intros j k A; apply (J j k); apply in_or_app; right; exact A).
  destruct (step_done os s E ps o I J1) as (s1 & D & L); [lia | intros k -> A; exact (N k (or_introl eq_refl) A) |].
  rewrite D. destruct (step_inv os s E ps o s1 I J1) as (E1 & ps1 & I1); [destruct o; cbn [step_size] in *; lia | exact D |].
  apply (IH (o :: os) s1 E1 ps1 I1 J); [lia | |].
  - destruct o; cbn [binds flat_map app] in ND; try exact ND. inversion ND; assumption.
  - intros k K [-> |A]; [|exact (N k (or_intror K) A)]. cbn [binds flat_map app] in ND. inversion ND as [|x y NI ND']. apply NI.
    apply in_flat_map. exists (Bind k). split; [exact K | left; reflexivity].
Qed.
Theorem labels_done : forall steps, closed steps -> NoDup (binds steps) -> steps_size steps < two31 / 2 ->
  exists s start, do_steps steps new_code = Some s /\ laid steps (c_bytes s) start.
Proof.
  intros steps C ND B. destruct (steps_done steps [] new_code (fun _ => None) []) as (s & D & L).
  - constructor; [reflexivity | intros l; reflexivity | intros l t A; discriminate A | exact Logic.I].
  - intros j l A. rewrite app_nil_r in A. apply in_rev in A. exact (proj1 (C j l A)).
  - cbn [new_code c_bytes length]. exact B.
  - exact ND.
  - intros k _ [].
  - destruct (labels_right steps s D C L) as [start S]. exists s, start. split; assumption.
Qed.
