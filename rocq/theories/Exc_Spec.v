(* Structured exceptions, which C24 says error scopes behave as. *)
From Verif Require Import Base Exc_Model.

Notation error := (Z * list Z)%type.
(* [means h seen left]: running [h] inside a scope, the scopes it opens see [seen], and the error [left]
   ends it, if any. *)
Inductive means : host -> list (option error) -> option error -> Prop :=
| m_report c m : means (Report c m) [] (Some (c, m))
| m_pass body s e : means_all body s e -> means (Scope body true) (s ++ [e]) e
| m_catch body s e : means_all body s e -> means (Scope body false) (s ++ [e]) None
| m_execute body s e : means_all body s e -> means (Execute body) (s ++ [e]) None
| m_invoke body s e : means_all body s e -> means (InvokeFn body) s e
with means_all : list host -> list (option error) -> option error -> Prop :=
| m_nil : means_all [] [] None
| m_stop h rest s e : means h s (Some e) -> means_all (h :: rest) s (Some e)
| m_next h rest s s' e : means h s None -> means_all rest s' e -> means_all (h :: rest) (s ++ s') e.

(* Errors have a code other than SP_ERROR_NONE. *)
Fixpoint real_errors (h : host) : Prop :=
  match h with
  | Report c _ => c <> SP_ERROR_NONE
  | Scope b _ | Execute b | InvokeFn b => fold_right (fun h P => real_errors h /\ P) True b
  end.
