(* Which functions a program uses, and for which ones code is generated.
   /repo/compiler/semantics.cpp, symbols.cpp, parse-node.cpp,
   code-generator.cpp. *)
From Coq Require Import ZArith List Bool.
Import ListNotations.
Local Open Scope Z_scope.

(* parse-node.h:1500-1700 FunctionDecl, as far as it matters here.  A function
   is named by a number; a prototype and its implementation are one function
   (canonical(), parse-node.cpp:149-153).  [f_body] lists the functions the
   body uses in the order of use: calls, addresses taken, accessors and
   destructors (the callers of markusage in semantics.cpp); it is None for a
   native or for a function declared only. *)
Record func := { f_id : Z; f_public : bool; f_native : bool; f_stock : bool; f_member : bool;
                 f_body : option (list Z) }.
Notation program := (list func).

(* parse-node.cpp:163-173 AddReferenceTo: a forward list without duplicates. *)
Definition add_reference (refs : list Z) (other : Z) : list Z :=
  if existsb (Z.eqb other) refs then refs else other :: refs.

(* symbols.cpp:36-66 markusage, called for each use while the body is
   analysed (semantics.cpp:2812). *)
Definition references (f : func) : list Z :=
  match f_body f with
  | None => nil
  | Some uses => fold_left add_reference uses nil
  end.

Definition lookup (p : program) (n : Z) : option func := find (fun f => f_id f =? n) p.
Definition refers_to (p : program) (n : Z) : list Z :=
  match lookup p n with Some f => references f | None => nil end.

(* semantics.cpp:2785-2846: a public function is recorded once its body has
   been analysed, a member or stock function as maybe used. *)
Definition publics (p : program) : list Z :=
  map f_id (filter (fun f => f_public f && match f_body f with Some _ => true | None => false end) p).
Definition maybe_used (p : program) : list Z :=
  map f_id (filter (fun f => (f_member f || f_stock f)
                             && match f_body f with Some _ => true | None => false end) p).

Definition seen_in (n : Z) (l : list Z) : bool := existsb (Z.eqb n) l.

(* semantics.cpp:3011-3019, the inner loop: marks every function referred to,
   and puts those not seen before on the stack. *)
Fixpoint visit (others marked seen work : list Z) : list Z * list Z * list Z :=
  match others with
  | nil => (marked, seen, work)
  | o :: rest =>
    let marked := o :: marked in
    if seen_in o seen then visit rest marked seen work
    else visit rest marked (o :: seen) (o :: work)
  end.

(* semantics.cpp:3006-3020, the outer loop; the stack's top is the head.
   None: out of fuel. *)
Fixpoint traverse (fuel : nat) (p : program) (marked seen work : list Z) : option (list Z) :=
  match fuel with
  | O => None
  | S fuel' =>
    match work with
    | nil => Some marked
    | n :: work' =>
      let '(marked, seen, work) := visit (refers_to p n) marked seen work' in
      traverse fuel' p marked seen work
    end
  end.

(* semantics.cpp:2993-3021 DeduceLiveness, 3023-3047 DeduceMaybeUsed: the same
   traversal from other roots. *)
Definition deduce (fuel : nat) (p : program) (roots : list Z) : option (list Z) :=
  traverse fuel p (rev roots) (rev roots) (rev roots).
Definition live (fuel : nat) (p : program) : option (list Z) := deduce fuel p (publics p).
Definition spared (fuel : nat) (p : program) : option (list Z) := deduce fuel p (maybe_used p).

(* code-generator.cpp:1934-1990 EmitFunctionDecl and the assertions of
   EmitCall (2034) and EmitSymbolExpr (1145): the functions code is generated
   for, or None if an assertion fails. *)
Fixpoint emit (alive : list Z) (p : program) : option (list Z) :=
  match p with
  | nil => Some nil
  | f :: rest =>
    if negb (seen_in (f_id f) alive) then emit alive rest
    else match f_body f with
         | None => emit alive rest
         | Some uses =>
           if forallb (fun u => seen_in u alive) uses
           then match emit alive rest with Some l => Some (f_id f :: l) | None => None end
           else None
         end
  end.

(* semantics.cpp:2279-2290 TestSymbol: warning 203, symbol is never used. *)
Definition unused (alive spare : list Z) (f : func) : bool :=
  negb (seen_in (f_id f) spare || seen_in (f_id f) alive)
  && negb (f_native f || f_stock f || f_public f)
  && match f_body f with Some _ => true | None => false end.
