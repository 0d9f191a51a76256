(* compiler/parser.cpp: reading statements.  C48. *)
From Verif Require Import Base Par_Model.

(* compiler/ast-types.h; positions are left out. *)
Inductive stmt :=
| SExpr (e : expr)
| SDecl (ty : Z) (l : list (Z * option expr))
| SBlock (l : list stmt)
| SIf (c : expr) (a : stmt) (b : option stmt)
| SWhile (c : expr) (s : stmt) | SDoWhile (s : stmt) (c : expr)
| SFor (init : option stmt) (c adv : option expr) (s : stmt)
| SSwitch (e : expr) (l : list (list expr * stmt)) (d : option stmt)
| SBreak | SContinue | SReturn (e : option expr) | SAssert (e : expr) | SDelete (e : expr) | SExit (e : option expr).

Definition is_kw (k : kw) (t : token) : bool :=
  match kind t, k with
  | Other KElse, KElse | Other KWhile, KWhile | Other KDo, KDo | Other KDefault, KDefault | Other KCase, KCase => true
  | _, _ => false
  end.
Definition at_kw (k : kw) (ts : list token) : option (list token) :=
  match ts with t :: r => if is_kw k t then Some r else None | [] => None end.
Definition at_colon (ts : list token) : option (list token) :=
  match ts with t :: r => match kind t with Colon _ => Some r | _ => None end | [] => None end.

Section Statements.
Variable ns : bool.                     (* NeedSemicolon() *)
Variable is_string : Z -> bool.         (* which literals are strings *)

(* lexer.cpp:2147-2171 match(tTERM): a semicolon, or the end of the line if semicolons are optional. *)
Definition term (ts : list token) : option (list token) :=
  match ts with
  | [] => if ns then None else Some []
  | t :: r => match kind t with P PSemi => Some r | _ => if negb ns && bol t then Some ts else None end
  end.
Definition needterm {A} (ts : list token) (a : A) : pres A :=
  match term ts with Some r => PGood a r | None => PBad end.

(* parser.cpp:1523-1550 parse_expr(false); with parentheses. *)
Definition exprs (ts : list token) : pres expr :=
  pbind (commas ns (20 * length ts + 17) true ts) (fun l r => PGood (mkparen l) r).
Definition parens (ts : list token) : pres expr :=
  need PLPar ts (fun r => pbind (exprs r) (fun e r1 => need PRPar r1 (fun r2 => PGood e r2))).

(* parser.cpp:1214-1252 var_init, without braces. *)
Definition var_init (ts : list token) : pres expr :=
  match ts with
  | t :: r =>
    match kind t with
    | P PLBrace => PBad
    | Lit v => if is_string v then PGood (ELit v) r else expression ns true ts
    | _ => expression ns true ts
    end
  | [] => PBad
  end.
(* parser.cpp:323-356 parse_var from the name on (a missing second name is reported later, when it is found defined twice).
   Only variables of the form type name, with initialisers other than braces, are modelled: arrays, static and old-style
   declarations count as errors here. *)
Fixpoint vars (f : nat) (ts : list token) : pres (list (Z * option expr)) :=
  match f with O => PFuel | S f =>
    match symbol true ts with
    | Some (s, r) =>
      pbind (match at_ (PAsg ASet) r with
             | Some r1 => pbind (var_init r1) (fun e r2 => PGood (Some e) r2)
             | None => PGood None r
             end) (fun o r1 =>
      match at_ PComma r1 with
      | Some r2 => pbind (vars f r2) (fun l r3 => PGood ((s, o) :: l) r3)
      | None => PGood [(s, o)] r1
      end)
    | None => PBad
    end
  end.
Definition local_decl (ts : list token) : pres stmt :=
  match typename true ts with
  | Some (ty, r) => pbind (vars (S (length r)) r) (fun l r1 => PGood (SDecl ty l) r1)
  | None => PBad
  end.
(* parser.cpp:1295-1306, 1584-1592: does a declaration begin here?  name [ ] or name name; or a type. *)
Definition is_decl (ts : list token) : bool :=
  match ts with
  | t :: r =>
    match kind t with
    | Ty _ => true
    | Sym _ =>
      match glued r with
      | Some _ => false
      | None =>
        match at_ PLBrk r with
        | Some r1 => match at_ PRBrk r1 with Some _ => true | None => false end
        | None => match symbol true r with Some _ => true | None => false end
        end
      end
    | _ => false
    end
  | [] => false
  end.

(* parser.cpp:1284-1466 parse_stmt; [decl] is allow_decl, [loop] is in_loop_.  Every error message gives [PBad].  Not modelled
   (errors here): const, enum, static, decl, the old-style new, static_assert, #pragma unused. *)
Fixpoint statement (f : nat) (decl loop : bool) (ts : list token) {struct f} : pres stmt :=
  match f with O => PFuel | S f =>
    let expr_stmt := pbind (exprs ts) (fun e r => needterm r (SExpr e)) in
    if is_decl ts then if decl then pbind (local_decl ts) (fun s r => needterm r s) else PBad
    else
    match ts with
    | [] => PBad
    | t :: r =>
      match kind t with
      | New =>
        (* 1328-1337: new T( is an expression *)
        match symbol true r with
        | Some (_, r1) => match at_ PLPar r1 with Some _ => expr_stmt | None => PBad end
        | None => PBad
        end
      | P PSemi => PBad
      | P PLBrace => pbind (compound f loop r) (fun l r1 => PGood (SBlock l) r1)
      | Other k =>
        match k with
        | KIf =>
          (* 1505-1521 parse_if *)
          pbind (parens r) (fun c r1 => pbind (statement f false loop r1) (fun a r2 =>
          match at_kw KElse r2 with
          | Some r3 => pbind (statement f false loop r3) (fun b r4 => PGood (SIf c a (Some b)) r4)
          | None => PGood (SIf c a None) r2
          end))
        | KWhile => pbind (parens r) (fun c r1 => pbind (statement f false true r1) (fun s r2 => PGood (SWhile c s) r2))
        | KDo =>
          pbind (statement f false true r) (fun s r1 =>
          match at_kw KWhile r1 with
          | Some r2 =>
            match at_ PLPar r2 with
            | Some r3 => pbind (exprs r3) (fun c r4 => need PRPar r4 (fun r5 => needterm r5 (SDoWhile s c)))
            | None => pbind (exprs r2) (fun c r4 => needterm r4 (SDoWhile s c))
            end
          | None => PBad
          end)
        | KFor =>
          (* 1552-1629 parse_for *)
          let '(par, r0) := match at_ PLPar r with Some r0 => (true, r0) | None => (false, r) end in
          let closes ts := if par then at_ PRPar ts else at_kw KDo ts in
          pbind (match at_ PSemi r0 with
                 | Some r1 => PGood None r1
                 | None =>
                   if is_decl r0 then pbind (local_decl r0) (fun s r1 => need PSemi r1 (fun r2 => PGood (Some s) r2))
                   else match r0 with
                   | t0 :: _ =>
                     match kind t0 with
                     | New => PBad
                     | _ => pbind (exprs r0) (fun e r1 => need PSemi r1 (fun r2 => PGood (Some (SExpr e)) r2))
                     end
                   | [] => PBad
                   end
                 end) (fun init r1 =>
          pbind (match at_ PSemi r1 with
                 | Some r2 => PGood None r2
                 | None => pbind (exprs r1) (fun e r2 => need PSemi r2 (fun r3 => PGood (Some e) r3))
                 end) (fun c r2 =>
          pbind (match closes r2 with
                 | Some r3 => PGood None r3
                 | None => pbind (exprs r2) (fun e r3 => match closes r3 with Some r4 => PGood (Some e) r4 | None => PBad end)
                 end) (fun adv r3 =>
          pbind (statement f false true r3) (fun s r4 => PGood (SFor init c adv s) r4))))
        | KSwitch =>
          (* 1631-1687 parse_switch *)
          let '(par, r0) := match at_ PLPar r with Some r0 => (true, r0) | None => (false, r) end in
          pbind (exprs r0) (fun e r1 =>
          match (if par then at_ PRPar r1 else at_kw KDo r1) with
          | Some r2 => need PLBrace r2 (fun r3 => pbind (cases f loop false r3) (fun ld r4 => PGood (SSwitch e (fst ld) (snd ld)) r4))
          | None => PBad
          end)
        | KBreak => if loop then needterm r SBreak else PBad
        | KContinue => if loop then needterm r SContinue else PBad
        | KReturn =>
          match term r with
          | Some r1 => PGood (SReturn None) r1
          | None => pbind (exprs r) (fun e r1 => needterm r1 (SReturn (Some e)))
          end
        | KAssert => pbind (parens r) (fun e r1 => needterm r1 (SAssert e))
        | KDelete => pbind (exprs r) (fun e r1 => needterm r1 (SDelete e))
        | KExit =>
          (* 1406-1414 *)
          match term r with
          | Some r1 => pbind (exprs r1) (fun e r2 => needterm r2 (SExit (Some e)))
          | None => PGood (SExit None) r
          end
        | KElse | KCase | KDefault | KAny _ => PBad
        end
      | _ => expr_stmt
      end
    end
  end
(* 1468-1482 parse_compound, and the closing brace at 1353. *)
with compound (f : nat) (loop : bool) (ts : list token) {struct f} : pres (list stmt) :=
  match f with O => PFuel | S f =>
    match at_ PRBrace ts with
    | Some r => PGood [] r
    | None => pbind (statement f true loop ts) (fun s r => pbind (compound f loop r) (fun l r1 => PGood (s :: l) r1))
    end
  end
(* The cases up to the closing brace.  [dflt]: the default has been seen. *)
with cases (f : nat) (loop dflt : bool) (ts : list token) {struct f} : pres (list (list expr * stmt) * option stmt) :=
  match f with O => PFuel | S f =>
    match at_ PRBrace ts with
    | Some r => PGood ([], None) r
    | None =>
      match at_kw KCase ts with
      | Some r =>
        if dflt then PBad
        else
          (* 1690-1712 parse_case *)
          pbind (commas ns (20 * length r + 17) false r) (fun es r1 =>
          match at_colon r1 with
          | Some r2 =>
            pbind (statement f false loop r2) (fun s r3 =>
            pbind (cases f loop false r3) (fun ld r4 => PGood ((es, s) :: fst ld, snd ld) r4))
          | None => PBad
          end)
      | None =>
        match at_kw KDefault ts with
        | Some r =>
          if dflt then PBad
          else match at_colon r with
          | Some r1 =>
            pbind (statement f false loop r1) (fun s r2 =>
            pbind (cases f loop true r2) (fun ld r3 => PGood (fst ld, Some s) r3))
          | None => PBad
          end
        | None => PBad
        end
      end
    end
  end.
Definition read_statement (decl loop : bool) (ts : list token) : pres stmt := statement (3 * length ts + 3) decl loop ts.
End Statements.
