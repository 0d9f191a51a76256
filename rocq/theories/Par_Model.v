(* compiler/parser.cpp: reading expressions.  C47. *)
From Verif Require Import Base.

(* ---- Tokens (compiler/tokens.h, compiler/lexer.cpp LexIntoToken) ---- *)
Inductive aop := ASet | AOr | AXor | AAnd | AAdd | ASub | AMul | ADiv | AMod | AShru | AShr | AShl.
Inductive punct :=
| PInc | PDec | PTilde | PBang
| PStar | PSlash | PPercent | PPlus | PMinus | PShl | PShr | PShru | PAmp | PCaret | PBar
| PLe | PGe | PLess | PMore | PEq | PNe | PAnd | POr
| PQuestion | PComma | PLPar | PRPar | PLBrk | PRBrk | PLBrace | PRBrace | PDot | PDblColon | PEllips | PSemi
| PAsg (o : aop).
Scheme Equality for aop.
Scheme Equality for punct.

(* Names, literals and types are numbers.  [Colon true]: the colon follows a name at once and is not doubled, so that the two
   may be a tag (lexer.cpp:2063-2081 LexSymbol; lexer.cpp:1632-1646 for the bodies of functions, whose tokens are read twice). *)
Inductive kw := KIf | KElse | KWhile | KDo | KFor | KSwitch | KCase | KDefault | KBreak | KContinue | KReturn | KAssert | KDelete | KExit | KAny (k : Z).
Inductive tk :=
| Sym (s : Z) | Lit (v : Z) | This | Under | Ty (s : Z) | New | Sizeof | ViewAs
| P (p : punct) | Colon (glued : bool) | Other (k : kw).
(* [bol]: the first on its line. *)
Record token := mkTok { kind : tk; bol : bool }.

(* ---- Trees (compiler/ast-types.h); positions are left out ---- *)
Inductive expr :=
| ESym (s : Z) | ELit (v : Z) | EThis
| EArray (l : list expr) (ellipses : bool)
| EField (op : punct) (e : expr) (s : Z) | EIndex (e : expr) (i : option expr) | ECall (f : expr) (l : list arg)
| EView (ty : Z) (e : expr)
| EUnary (op : punct) (e : expr) | EPreInc (op : punct) (e : expr) | EPostInc (op : punct) (e : expr)
| ECast (tag : Z) (e : expr) | ENew (s : Z) (l : list arg) | ENewArray (ty : Z) (l : list expr) | ESizeof (e : expr)
| EBin (op : punct) (a b : expr) | ELogic (op : punct) (a b : expr) | EChain (first : expr) (l : list (punct * expr))
| ETernary (c a b : expr) | EAssign (o : aop) (a b : expr)
| EComma (l : list expr)
with arg := AExpr (e : expr) | ANamed (s : Z) (e : expr) | ADefault.

(* [PBad]: an error message has been reported. *)
Inductive pres (A : Type) := PGood (a : A) (rest : list token) | PBad | PFuel.
Arguments PGood {A}. Arguments PBad {A}. Arguments PFuel {A}.
Definition pbind {A B} (m : pres A) (k : A -> list token -> pres B) : pres B :=
  match m with PGood a r => k a r | PBad => PBad | PFuel => PFuel end.

(* lexer.cpp:2147-2187 match and need. *)
Definition at_ (p : punct) (ts : list token) : option (list token) :=
  match ts with
  | t :: r => match kind t with P q => if punct_beq p q then Some r else None | _ => None end
  | [] => None
  end.
Definition need {A} (p : punct) (ts : list token) (k : list token -> pres A) : pres A :=
  match at_ p ts with Some r => k r | None => PBad end.
Definition glued (ts : list token) : option (list token) :=
  match ts with t :: r => match kind t with Colon true => Some r | _ => None end | [] => None end.
(* lexer.cpp:2486-2506 matchsymbol, needsymbol: a tag is not a symbol. *)
Definition symbol (tags : bool) (ts : list token) : option (Z * list token) :=
  match ts with
  | t :: r =>
    match kind t with
    | Sym s => match glued r with Some _ => if tags then None else Some (s, r) | None => Some (s, r) end
    | _ => None
    end
  | [] => None
  end.
(* parser.cpp:2531-2593 parse_new_typename; which names are types is not looked at, and a tag is refused (error 120). *)
Definition typename (tags : bool) (ts : list token) : option (Z * list token) :=
  match ts with
  | t :: r => match kind t with Ty s => Some (s, r) | _ => symbol tags ts end
  | [] => None
  end.

(* parser.cpp:699-713: the operators of each level, from hier3 (level 1) to hier12 (level 10). *)
Definition list_of (k : nat) : list punct :=
  match k with
  | 1 => [PStar; PSlash; PPercent]
  | 2 => [PPlus; PMinus]
  | 3 => [PShl; PShr; PShru]
  | 4 => [PAmp]
  | 5 => [PCaret]
  | 6 => [PBar]
  | 7 => [PLe; PGe; PLess; PMore]
  | 8 => [PEq; PNe]
  | 9 => [PAnd]
  | 10 => [POr]
  | _ => []
  end%nat.
(* parser.cpp:2603-2616. *)
Definition nextop (ops : list punct) (ts : list token) : option (punct * list token) :=
  match ts with
  | t :: r => match kind t with P p => if existsb (punct_beq p) ops then Some (p, r) else None | _ => None end
  | [] => None
  end.
(* parser.cpp:727-737. *)
Definition mkbin (op : punct) (a b : expr) : expr :=
  match op with POr | PAnd => ELogic op a b | _ => EBin op a b end.
(* parser.cpp:762-768. *)
Definition mkrel (first : expr) (l : list (punct * expr)) : expr :=
  match l with
  | [] => first
  | [(op, b)] => EBin op first b
  | _ => EChain first l
  end.
Definition mkparen (l : list expr) : expr := match l with [e] => e | _ => EComma l end.

(* parser.cpp:907-909: the opening parentheses behind sizeof. *)
Fixpoint strip (ts : list token) : nat * list token :=
  match ts with
  | t :: r => match kind t with P PLPar => let (n, r') := strip r in (S n, r') | _ => (O, ts) end
  | [] => (O, [])
  end.
Fixpoint closing {A} (n : nat) (ts : list token) (k : list token -> pres A) : pres A :=
  match n with O => k ts | S n' => need PRPar ts (fun r => closing n' r k) end.

Section Parse.
Variable ns : bool.                     (* NeedSemicolon() *)

(* parser.cpp:931-955: postfix operators.  A token that begins a line ends the statement if semicolons are optional. *)
Definition postfix (node : expr) (ts : list token) : pres expr :=
  match ts with
  | [] => PGood node ts
  | t :: r =>
    if negb ns && bol t then PGood node ts
    else match kind t with
    | P PInc => PGood (EPostInc PInc node) r
    | P PDec => PGood (EPostInc PDec node) r
    | _ => PGood node ts
    end
  end.

(* [tags] is the lexer's allow_tags; it is passed on by the functions that change it only for what they call.  Tokens looked at
   and pushed back are read again with the same setting unless an error is reported.  The flag allow_empty_array_index is only
   ever set in the call of hier1 for sizeof ([ix]), as hier14 clears it.  A text that ends behind the comma of a call is an
   error here (in a function body the call ends there, and the missing brace is reported). *)
Fixpoint hier14 (f : nat) (tags : bool) (ts : list token) {struct f} : pres expr :=
  match f with O => PFuel | S f =>
    (* parser.cpp:661-697 *)
    pbind (hier13 f tags ts) (fun a r =>
    match r with
    | t :: r1 =>
      match kind t with
      | P (PAsg o) => pbind (hier14 f tags r1) (fun b r2 => PGood (EAssign o a b) r2)
      | _ => PGood a r
      end
    | [] => PGood a r
    end)
  end
with hier13 (f : nat) (tags : bool) (ts : list token) {struct f} : pres expr :=
  match f with O => PFuel | S f =>
    (* parser.cpp:770-787 *)
    pbind (hier f 10 tags ts) (fun c r =>
    match at_ PQuestion r with
    | Some r1 =>
      pbind (hier13 f false r1) (fun a r2 =>
      match r2 with
      | t :: r3 =>
        match kind t with
        | Colon _ => pbind (hier13 f tags r3) (fun b r4 => PGood (ETernary c a b) r4)
        | _ => PBad
        end
      | [] => PBad
      end)
    | None => PGood c r
    end)
  end
with hier (f : nat) (k : nat) (tags : bool) (ts : list token) {struct f} : pres expr :=
  match f with O => PFuel | S f =>
    match k with
    | O => hier2 f tags ts
    | S j =>
      (* parser.cpp:715-768, 789-847 *)
      pbind (hier f j tags ts) (fun a r =>
      if Nat.eqb k 7 then pbind (rel_loop f tags r) (fun l r1 => PGood (mkrel a l) r1)
      else bin_loop f k tags a r)
    end
  end
with bin_loop (f : nat) (k : nat) (tags : bool) (node : expr) (ts : list token) {struct f} : pres expr :=
  match f with O => PFuel | S f =>
    match nextop (list_of k) ts with
    | None => PGood node ts
    | Some (op, r) => pbind (hier f (pred k) tags r) (fun b r1 => bin_loop f k tags (mkbin op node b) r1)
    end
  end
with rel_loop (f : nat) (tags : bool) (ts : list token) {struct f} : pres (list (punct * expr)) :=
  match f with O => PFuel | S f =>
    match nextop (list_of 7) ts with
    | None => PGood [] ts
    | Some (op, r) => pbind (hier f 6 tags r) (fun b r1 => pbind (rel_loop f tags r1) (fun l r2 => PGood ((op, b) :: l) r2))
    end
  end
with hier2 (f : nat) (tags : bool) (ts : list token) {struct f} : pres expr :=
  match f with O => PFuel | S f =>
    (* parser.cpp:849-958 *)
    let dflt := pbind (hier1 f tags false ts) (fun node r => postfix node r) in
    match ts with
    | [] => PBad
    | t :: r =>
      match kind t with
      | P PInc => pbind (hier2 f tags r) (fun e r1 => PGood (EPreInc PInc e) r1)
      | P PDec => pbind (hier2 f tags r) (fun e r1 => PGood (EPreInc PDec e) r1)
      | P PTilde => pbind (hier2 f tags r) (fun e r1 => PGood (EUnary PTilde e) r1)
      | P PMinus => pbind (hier2 f tags r) (fun e r1 => PGood (EUnary PMinus e) r1)
      | P PBang => pbind (hier2 f tags r) (fun e r1 => PGood (EUnary PBang e) r1)
      | New =>
        match symbol tags r with
        | Some (s, r1) =>
          match at_ PLPar r1 with
          | Some r2 => pbind (parse_call f tags r2) (fun l r3 => PGood (ENew s l) r3)
          | None => need PLBrk r1 (fun r2 => pbind (dims f tags r2) (fun l r3 => PGood (ENewArray s l) r3))
          end
        | None =>
          match typename tags r with
          | Some (s, r1) => need PLBrk r1 (fun r2 => pbind (dims f tags r2) (fun l r3 => PGood (ENewArray s l) r3))
          | None => PBad
          end
        end
      | Sizeof =>
        let (n, r1) := strip r in
        pbind (hier1 f tags true r1) (fun e r2 => closing n r2 (fun r3 => PGood (ESizeof e) r3))
      | Sym s =>
        match (if tags then glued r else None) with
        | Some r1 => pbind (hier2 f tags r1) (fun e r2 => PGood (ECast s e) r2)
        | None => dflt
        end
      | _ => dflt
      end
    end
  end
with hier1 (f : nat) (tags ix : bool) (ts : list token) {struct f} : pres expr :=
  match f with O => PFuel | S f =>
    (* parser.cpp:960-994; parse_view_as 1123-1143 *)
    match ts with
    | [] => PBad
    | t :: r =>
      match kind t with
      | ViewAs =>
        need PLess r (fun r1 =>
        match typename tags r1 with
        | Some (s, r2) =>
          need PMore r2 (fun r3 => need PLPar r3 (fun r4 =>
          pbind (hier14 f tags r4) (fun e r5 => need PRPar r5 (fun r6 => accesses f tags ix (EView s e) r6))))
        | None => PBad
        end)
      | _ => pbind (primary f tags ts) (fun b r1 => accesses f tags ix b r1)
      end
    end
  end
with accesses (f : nat) (tags ix : bool) (base : expr) (ts : list token) {struct f} : pres expr :=
  match f with O => PFuel | S f =>
    match ts with
    | [] => PGood base ts
    | t :: r =>
      match kind t with
      | P PDot => match symbol tags r with Some (s, r1) => accesses f tags ix (EField PDot base s) r1 | None => PBad end
      | P PDblColon => match symbol tags r with Some (s, r1) => accesses f tags ix (EField PDblColon base s) r1 | None => PBad end
      | P PLBrk =>
        match (if ix then at_ PRBrk r else None) with
        | Some r1 => accesses f tags ix (EIndex base None) r1
        | None => pbind (hier14 f tags r) (fun i r1 => need PRBrk r1 (fun r2 => accesses f tags ix (EIndex base (Some i)) r2))
        end
      | P PLPar => pbind (parse_call f tags r) (fun l r1 => accesses f tags ix (ECall base l) r1)
      | _ => PGood base ts
      end
    end
  end
with primary (f : nat) (tags : bool) (ts : list token) {struct f} : pres expr :=
  match f with O => PFuel | S f =>
    (* parser.cpp:996-1076, with constant *)
    match ts with
    | [] => PBad
    | t :: r =>
      match kind t with
      | P PLPar => pbind (commas f true r) (fun l r1 => need PRPar r1 (fun r2 => PGood (mkparen l) r2))
      | This => PGood EThis r
      | Sym _ => match symbol tags ts with Some (s, r1) => PGood (ESym s) r1 | None => PBad end
      | Lit v => PGood (ELit v) r
      | P PLBrace => pbind (braces f tags r) (fun le r1 => need PRBrace r1 (fun r2 => PGood (EArray (fst le) (snd le)) r2))
      | _ => PBad
      end
    end
  end
with commas (f : nat) (tags : bool) (ts : list token) {struct f} : pres (list expr) :=
  match f with O => PFuel | S f =>
    (* parser.cpp:1009-1012 *)
    pbind (hier14 f tags ts) (fun e r =>
    match at_ PComma r with
    | Some r1 => pbind (commas f tags r1) (fun l r2 => PGood (e :: l) r2)
    | None => PGood [e] r
    end)
  end
with braces (f : nat) (tags : bool) (ts : list token) {struct f} : pres (list expr * bool) :=
  match f with O => PFuel | S f =>
    (* parser.cpp:1058-1069 *)
    match at_ PEllips ts with
    | Some r => PGood ([], true) r
    | None =>
      pbind (hier14 f tags ts) (fun e r =>
      match at_ PComma r with
      | Some r1 => pbind (braces f tags r1) (fun le r2 => PGood (e :: fst le, snd le) r2)
      | None => PGood ([e], false) r
      end)
    end
  end
with dims (f : nat) (tags : bool) (ts : list token) {struct f} : pres (list expr) :=
  match f with O => PFuel | S f =>
    (* parser.cpp:1254-1265 *)
    pbind (hier14 f tags ts) (fun e r => need PRBrk r (fun r1 =>
    match at_ PLBrk r1 with
    | Some r2 => pbind (dims f tags r2) (fun l r3 => PGood (e :: l) r3)
    | None => PGood [e] r1
    end))
  end
with parse_call (f : nat) (tags : bool) (ts : list token) {struct f} : pres (list arg) :=
  match f with O => PFuel | S f =>
    (* parser.cpp:1078-1121 *)
    match at_ PRPar ts with Some r => PGood [] r | None => args f tags false ts end
  end
with args (f : nat) (tags named : bool) (ts : list token) {struct f} : pres (list arg) :=
  match f with O => PFuel | S f =>
    let more named a r :=
      match at_ PRPar r with
      | Some r1 => PGood [a] r1
      | None => need PComma r (fun r1 => pbind (args f tags named r1) (fun l r2 => PGood (a :: l) r2))
      end in
    match at_ PDot ts with
    | Some r =>
      match symbol tags r with
      | Some (s, r1) =>
        need (PAsg ASet) r1 (fun r2 =>
        match r2 with
        | t :: r3 => match kind t with
                     | Under => more true ADefault r3
                     | _ => pbind (hier14 f tags r2) (fun e r4 => more true (ANamed s e) r4)
                     end
        | [] => PBad
        end)
      | None => PBad
      end
    | None =>
      if named then PBad
      else match ts with
      | t :: r => match kind t with
                  | Under => more false ADefault r
                  | _ => pbind (hier14 f tags ts) (fun e r1 => more false (AExpr e) r1)
                  end
      | [] => PBad
      end
    end
  end.

(* Reading one expression from the tokens that are left: parser.cpp:661.  The calls nest no deeper than this. *)
Definition expression (tags : bool) (ts : list token) : pres expr := hier14 (20 * length ts + 16) tags ts.
End Parse.
