(* What names mean.  Written without the scopes the compiler keeps: a program
   is read as the list of the places where a name is declared or used, each
   with the blocks it stands in, and a use means the declaration in the
   innermost of those blocks. *)

From Coq Require Import ZArith List Bool.
From Verif Require Import Names_Model.
Import ListNotations.
Local Open Scope Z_scope.

(* Where something stands: the blocks around it, the innermost first.  A block
   is known by the way to it from the top of the program ([At]); outside all
   blocks there is the file.  Nothing around it: visible in every file. *)
Inductive block := InFile (f : nat) | At (way : list nat).
Notation place := (list block).

(* q is one of the places around p, or p itself. *)
Definition around (q p : place) : Prop := exists r, p = r ++ q.

Inductive how := Plain | Argument | NativeArgument.

(* A declaration in a block; a variable of a file (static, or visible in every
   file); a function (static or not); the use of name n at u. *)
Inductive occ :=
| ODecl (q : place) (w : how) (d : decl)
| OVar (f : nat) (static : bool) (d : decl)
| OFun (f : nat) (a : fattr) (d : decl)
| OUse (q : place) (u n : Z).

Fixpoint occ_e (q : place) (e : expr) : list occ :=
  match e with
  | ENone => []
  | EUse u n => [OUse q u n]
  | EPair a b => occ_e q a ++ occ_e q b
  | ECall f a => occ_e q f ++ occ_e q a
  end.

(* The occurrences in a statement, standing at q, to which the way is w.  A
   block and a "for" that declares are places of their own.  A variable is
   declared after its initialiser, a constant before it. *)
Fixpoint occ_s (q : place) (w : list nat) (s : stmt) : list occ :=
  match s with
  | SSkip => []
  | SSeq a b => occ_s q (0 :: w)%nat a ++ occ_s q (1 :: w)%nat b
  | SExpr e => occ_e q e
  | SVar p n e => occ_e q e ++ [ODecl q Plain (mkD n p None)]
  | SConst p n e => ODecl q Plain (mkD n p None) :: occ_e q e
  | SBlock b => occ_s (At w :: q) (0 :: w)%nat b
  | SIf e a b => occ_e q e ++ occ_s q (0 :: w)%nat a ++ occ_s q (1 :: w)%nat b
  | SLoop e b => occ_e q e ++ occ_s q (0 :: w)%nat b
  | SFor own i c a b =>
    let q' := if own then At w :: q else q in
    occ_s q' (0 :: w)%nat i ++ occ_e q' c ++ occ_e q' a ++ occ_s q' (1 :: w)%nat b
  | SSwitch e d cs => occ_e q e ++ occ_s q (0 :: w)%nat d ++ occ_s q (1 :: w)%nat cs
  end.

Fixpoint occ_args (q : place) (w : how) (l : list arg) : list occ :=
  match l with
  | [] => []
  | x :: l' =>
    occ_e q (a_init x) ++ ODecl q w (mkD (a_name x) (a_pos x) None) :: occ_args q w l'
  end.

(* Arguments stand outside the block of the body. *)
Definition occ_fun (f k : nat) (native : bool) (args : list arg) (body : stmt) : list occ :=
  let q := [At [k]; InFile f] in
  occ_args q (if native then NativeArgument else Argument) args ++
  occ_s q [0; k]%nat (SBlock body).

(* First the names of all files, with the initialisers of variables ... *)
Definition occ_names (x : nat * item) : list occ :=
  let f := fst x in
  match snd x with
  | TVar static p n e => occ_e [InFile f] e ++ [OVar f static (mkD n p None)]
  | TConst p n e => OVar f false (mkD n p None) :: occ_e [InFile f] e
  | TFun a p n _ _ => [OFun f a (mkD n p (Some a))]
  | TMethod _ _ _ => []
  | TExpr _ => []
  end.

(* ... and then what is inside functions. *)
Definition occ_inside (k : nat) (x : nat * item) : list occ :=
  let f := fst x in
  match snd x with
  | TVar _ _ _ _ => []
  | TConst _ _ _ => []
  | TFun a _ _ args body => occ_fun f k (f_native a) args body
  | TMethod native args body => occ_fun f k native args body
  | TExpr e => occ_e [InFile f] e
  end.

Fixpoint occ_bodies (k : nat) (p : list (nat * item)) : list occ :=
  match p with
  | [] => []
  | x :: p' => occ_inside k x ++ occ_bodies (S k) p'
  end.

Definition occurrences (p : list (nat * item)) : list occ :=
  flat_map occ_names p ++ occ_bodies 0 p.

(* What has been declared: each declaration with its place, the latest first. *)
Notation table := (list (place * decl)).

(* n is declared at q as d. *)
Definition declared_at (D : table) (q : place) (n : Z) (d : decl) : Prop :=
  In (q, d) D /\ d_name d = n.

(* Seen from p, n means d, declared at q: no declaration of n stands further
   in. *)
Definition means (D : table) (p : place) (n : Z) (q : place) (d : decl) : Prop :=
  around q p /\ declared_at D q n d /\
  forall q' d', around q' p -> declared_at D q' n d' -> around q' q.

Definition visible (D : table) (p : place) (n : Z) : Prop :=
  exists q d, around q p /\ declared_at D q n d.

(* The place a declaration of a file is made at. *)
Definition top_place (f : nat) (static : bool) : place := if static then [InFile f] else [].

(* The declarations made by a list of occurrences.  A function whose name is
   visible already is the other half of one, and declares nothing new. *)
Inductive declares : list occ -> table -> Prop :=
| dec_nil : declares [] []
| dec_use : forall O D q u n, declares O D -> declares (O ++ [OUse q u n]) D
| dec_decl : forall O D q w d, declares O D -> declares (O ++ [ODecl q w d]) ((q, d) :: D)
| dec_var : forall O D f st d, declares O D ->
    declares (O ++ [OVar f st d]) ((top_place f st, d) :: D)
| dec_fun : forall O D f a d, declares O D -> ~ visible D [InFile f] (d_name d) ->
    declares (O ++ [OFun f a d]) ((top_place f (f_static a), d) :: D)
| dec_pair : forall O D f a d, declares O D -> visible D [InFile f] (d_name d) ->
    declares (O ++ [OFun f a d]) D.

(* A forward and the public function that implements it, in either order. *)
Definition plain_public (a : fattr) : Prop :=
  f_public a = true /\ f_body a = true /\ f_fwd a = false /\ f_native a = false /\
  f_stock a = false /\ f_static a = false.
Definition plain_forward (a : fattr) : Prop :=
  f_fwd a = true /\ f_body a = false.
Definition two_halves (a b : fattr) : Prop :=
  (plain_forward a /\ plain_public b) \/ (plain_public a /\ plain_forward b).

(* What each occurrence must be like, given what was declared before it. *)
Definition in_order (D : table) (o : occ) : Prop :=
  match o with
  | OUse q _ n => visible D q n
  | ODecl q _ d => forall d', ~ declared_at D q (d_name d) d'
  | OVar f true d => forall d', ~ declared_at D [InFile f] (d_name d) d'
  | OVar f false d => ~ visible D [InFile f] (d_name d)
  | OFun f a d => True
  end.

(* Every name that is used is visible, and none is declared twice at a place;
   a name visible in every file is not declared again, nor where the file has
   a static one. *)
Definition well_named (O : list occ) : Prop :=
  forall P R o D, O = P ++ o :: R -> declares P D -> in_order D o.

(* Names of functions are declared once, or are those of the two halves of one
   function; no name is that of a third. *)
Definition functions_paired (O : list occ) : Prop :=
  forall P R f a d D, O = P ++ OFun f a d :: R -> declares P D ->
  visible D [InFile f] (d_name d) ->
  (forall q d', means D [InFile f] (d_name d) q d' ->
     exists a', d_fn d' = Some a' /\ two_halves a' a) /\
  (forall P1 P2 f1 a1 d1 D1, P = P1 ++ OFun f1 a1 d1 :: P2 -> d_name d1 = d_name d ->
     declares P1 D1 -> ~ visible D1 [InFile f1] (d_name d)).

(* In what was read so far, d1 is the other half of the function that dd was the
   first half of. *)
Definition other_half (P : list occ) (dd d1 : decl) : Prop :=
  exists P1 P2 f a D q, P = P1 ++ OFun f a d1 :: P2 /\ declares P1 D /\
    means D [InFile f] (d_name d1) q dd.

Definition has_body (d : decl) : Prop := exists a, d_fn d = Some a /\ f_body a = true.

(* The declaration, known by its place, that a use found to mean dd is taken
   for: the half that has the body, if it was read. *)
Definition taken_for (P : list occ) (dd : decl) (c : Z) : Prop :=
  (has_body dd /\ c = d_pos dd) \/
  (~ has_body dd /\ exists d1, other_half P dd d1 /\ c = d_pos d1) \/
  (~ has_body dd /\ (forall d1, ~ other_half P dd d1) /\ c = d_pos dd).

(* A declaration in a block hides one outside it, and is warned of. *)
Definition hides (D : table) (o : occ) : Prop :=
  match o with
  | ODecl q Plain d => visible D (tl q) (d_name d)
  | ODecl q Argument d =>
    exists q' d', means D (tl q) (d_name d) q' d' /\ d_fn d' = None
  | ODecl q NativeArgument d => False
  | OVar f true d => exists d', declared_at D [] (d_name d) d'
  | OVar f false d => False
  | OFun _ _ _ => False
  | OUse _ _ _ => False
  end.

Definition place_of (o : occ) : Z :=
  match o with
  | ODecl _ _ d => d_pos d | OVar _ _ d => d_pos d | OFun _ _ d => d_pos d | OUse _ u _ => u
  end.

(* The files a program speaks of are those it has. *)
Definition files_exist (files : nat) (p : list (nat * item)) : Prop :=
  forall x, In x p -> (fst x < files)%nat.

(* Natives have no body. *)
Definition natives_bodiless (p : list (nat * item)) : Prop :=
  forall f x, In (f, x) p ->
  match x with
  | TFun a _ _ _ body => f_native a = true -> body = SSkip
  | TMethod native _ body => native = true -> body = SSkip
  | _ => True
  end.

(* Declarations stand at different places in the text. *)
Definition decl_of (o : occ) : list decl :=
  match o with
  | ODecl _ _ d => [d] | OVar _ _ d => [d] | OFun _ _ d => [d] | OUse _ _ _ => []
  end.
Definition places_differ (O : list occ) : Prop :=
  NoDup (map d_pos (flat_map decl_of O)).
