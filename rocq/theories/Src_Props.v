(* C34: source positions identify file and line. *)
From Verif Require Import Base Src_Model Src_Spec Src_Proofs.

(* After any sequence of inclusions, expansions and questions, every position handed out maps back to
   the file, line and column it comes from; nothing asserts. *)
Theorem C34_maps_back h : well_used h -> exists s, run h initial = Done s /\
  forall p, exists_in (entered h) p -> exists i d o, comes_from (entered h) p i d o /\ 0 <= o <= Z.of_nat (length d) /\
    (exists s', GetSourceFileIndex s (position s p) = Done (i, s')) /\
    (exists s', GetLineAndCol s (position s p) = Done (line_of d o, column_of d o, s')).
Proof. exact (positions_found h). Qed.
Print Assumptions C34_maps_back.

(* Positions of different places differ. *)
Theorem C34_no_collision h : well_used h -> exists s, run h initial = Done s /\
  forall p q, exists_in (entered h) p -> exists_in (entered h) q -> position s p = position s q -> p = q.
Proof. exact (positions_distinct h). Qed.
Print Assumptions C34_no_collision.

(* A position is never the invalid one, and says whether it is in a macro. *)
Theorem C34_macro_flag h : well_used h -> exists s, run h initial = Done s /\
  forall p e, exists_in (entered h) p -> nth_error (entered h) (fst p - 1) = Some e ->
    0 < position s p < two32 /\ IsInMacro (position s p) = (match e with Macro _ _ => true | File _ _ => false end).
Proof. exact (positions_flag h). Qed.
Print Assumptions C34_macro_flag.

(* The line printed for a position has its character at the reported column. *)
Theorem C34_shown_line d off : 0 <= off < Z.of_nat (length d) -> Z.of_nat (length d) < two31 ->
  nth_error (GetLine d (line_of d off)) (Z.to_nat (column_of d off - 1)) = nth_error d (Z.to_nat off).
Proof. exact (shown_line d off). Qed.
Print Assumptions C34_shown_line.

(* Two files and nested macros; positions are asked for in between. *)
Definition demo : list event :=
  [Include 0 [97; 13; 10; 98; 99] 0; Expand 1 (1%nat, 3) 4; AskLine (2%nat, 1); Include 1 [100; 10] 2; AskFile (1%nat, 5);
   Expand 1 (2%nat, 0) 2; AskLine (4%nat, 2); AskFile (3%nat, 2)].
Example C34_case : well_used demo /\ length (entered demo) = 4%nat /\
  (match run demo initial with
   | Done s => match GetLineAndCol s (position s (4%nat, 2)) with Done (l, c, _) => (l =? 2) && (c =? 1) | _ => false end
   | _ => false end) = true.
Proof.
  split; [|split; vm_compute; reflexivity]. unfold well_used, demo. cbn [well_used_from].
  repeat split; try (cbn; lia); try exact I; (eexists; split; [|split; [vm_compute; reflexivity|]]; cbn; lia).
Qed.
