(* C50: examples. *)
From Coq Require Import Lia.
From Coq Require String Ascii.
Import String.StringSyntax.
From Verif Require Import Base Mac_Model Mac_Spec.
Local Open Scope string_scope.
Local Open Scope Z_scope.

Definition bytes (s : String.string) : list Z := map (fun a => Z.of_nat (Ascii.nat_of_ascii a)) (String.list_ascii_of_string s).
Definition nl : list Z := [10].

Definition body := bytes "emit(#%1, %2, ""a%1"", '%2', %1)".
Definition arg1 := bytes " f(x, y)".
Definition arg2 := bytes " ""1,2"" ".
Definition expanded := bytes "emit(""f(x, y)"", ""1,2"" , ""a%1"", '%2', f(x, y))".

Lemma blank2 : blank [32; 32].
Proof. repeat constructor. Qed.
Lemma body_ok : trimmed body /\ tidy None body = true /\ Forall (fun a => argument false 0 a = true) [arg1; arg2].
Proof. split; [split; reflexivity|]. split; [reflexivity|]. repeat constructor. Qed.
Definition suppliedb (al : list (Z * list Z)) (p : piece) : bool :=
  match p with Char _ => true | Param n | Quoted n => match lookup al n with Some _ => true | None => false end end.
Lemma supplied_all : forall al l, forallb (suppliedb al) l = true -> Forall (supplied al) l.
Proof.
  intros al l H. apply Forall_forall. intros p I. rewrite forallb_forall in H. specialize (H p I).
  destruct p as [c|n|n]; [exact Logic.I| |]; cbn in H |- *; destruct (lookup al n); discriminate.
Qed.
Lemma body_supplied : Forall (supplied (combine [1; 2] (map drop_spaces [arg1; arg2]))) (pieces None body).
Proof. apply supplied_all. vm_compute. reflexivity. Qed.
Lemma body_expanded : render (combine [1; 2] (map drop_spaces [arg1; arg2])) (pieces None body) = expanded.
Proof. vm_compute. reflexivity. Qed.

(* #define SEP "\\"
   int x;            *)
Definition two_lines := bytes " ""\\""" ++ nl ++ bytes "int x;" ++ nl.
Lemma two_lines_taken : skim_line false two_lines = Skimmed (bytes """\\""" ++ nl ++ bytes "int x;") [] nl.
Proof. vm_compute. reflexivity. Qed.
(* #pragma deprecated Doesn't work
   native bool F();                    *)
Definition deprecated := bytes " Doesn't work" ++ nl ++ bytes "native bool F();" ++ nl.
Lemma deprecated_taken : skim_line false deprecated = Skimmed (bytes "Doesn't work" ++ nl ++ bytes "native bool F();") [] nl.
Proof. vm_compute. reflexivity. Qed.
(* A call of g with a string of one backslash, the parameter, and a string of one quote: no parameter is seen, though there is one. *)
Definition param_lost := bytes "g(""\\"", %1, ""\"""")".
Lemma param_lost_text : skim_line true (param_lost ++ nl) = Skimmed param_lost [] nl /\ In (Param 1) (pieces None param_lost).
Proof. split; [vm_compute; reflexivity|]. vm_compute. repeat (first [left; reflexivity | right]). Qed.

Lemma string_argument : skim_argument (bytes """\"","", 2)") = Some (bytes """\""", bytes ","", 2)").
Proof. vm_compute. reflexivity. Qed.
Lemma char_argument : skim_argument (bytes "',', 2)") = Some (bytes "'", bytes ",', 2)").
Proof. vm_compute. reflexivity. Qed.

Lemma hash_lost : substitute (bytes "#%2") [] [1%nat] 0 = Some (bytes "%2").
Proof. vm_compute. reflexivity. Qed.

(* Two macros: 1 with one argument in parentheses (tokens 100 and 101) and the text "7 argument 8"; 2 without arguments and the text "2 3". *)
Definition table (m : Z) (ts : list Z) : option (list Z * list Z) :=
  if m =? 2 then Some ([2; 3], ts)
  else if m =? 1 then
    match ts with
    | 100 :: r =>
        (fix take (d : nat) (l acc : list Z) : option (list Z * list Z) :=
           match l with
           | [] => None
           | t :: l' => if t =? 101 then match d with O => Some (7 :: acc ++ [8], l') | S d' => take d' l' (acc ++ [t]) end
                        else take (if t =? 100 then S d else d) l' (acc ++ [t])
           end) O r []
    | _ => None
    end
  else None.
Lemma table_known : forall m ts r, table m ts = Some r -> In m [1; 2].
Proof.
  intros m ts r. unfold table. destruct (m =? 2) eqn:A; [apply Z.eqb_eq in A; subst; cbn; auto|]. destruct (m =? 1) eqn:B; [apply Z.eqb_eq in B; subst; cbn; auto|discriminate].
Qed.
Lemma table_less : forall m ts text rest, table m ts = Some (text, rest) -> (length rest <= length ts)%nat.
Proof.
  intros m ts text rest. unfold table. destruct (m =? 2); [intros [= <- <-]; lia|]. destruct (m =? 1); [|discriminate].
  destruct ts as [|t r]; [discriminate|]. destruct (t =? 100) eqn:T.
  - apply Z.eqb_eq in T. subst t.
    assert (G : forall l d acc, (fix take (d : nat) (l acc : list Z) : option (list Z * list Z) :=
           match l with
           | [] => None
           | t :: l' => if t =? 101 then match d with O => Some (7 :: acc ++ [8], l') | S d' => take d' l' (acc ++ [t]) end
                        else take (if t =? 100 then S d else d) l' (acc ++ [t])
           end) d l acc = Some (text, rest) -> (length rest <= length l)%nat).
    { induction l as [|x l IH]; intros d acc H; [discriminate|]. cbn [length]. destruct (x =? 101).
      - destruct d; [injection H as _ <-; lia|]. apply IH in H. lia.
      - apply IH in H. lia. }
    intros H. apply G in H. cbn [length]. lia.
  - intros H. exfalso. destruct t as [|p|p]; try discriminate. do 7 (destruct p as [p|p|]; try discriminate).
Qed.
(* 2 1(2) expands to 2 3 7 2 3 8; but 1(1(5)) only to 7 1(5) 8. *)
Lemma table_expanded : expand table 100 [(None, [2; 1; 100; 2; 101])] [] = Some [2; 3; 7; 2; 3; 8].
Proof. vm_compute. reflexivity. Qed.
Lemma own_argument : expand table 100 [(None, [1; 100; 1; 100; 5; 101; 101])] [] = Some [7; 1; 100; 5; 101; 8].
Proof. vm_compute. reflexivity. Qed.

(* f(%1, /* first */ %2) \
     + %1                       and the argument  x /* a, b */ + (1, /***/ 2) *)
Definition some_parts : list (list Z * gap) := [(bytes " f(%1, ", Comment (bytes " first ")); (bytes " %2) ", Continued [32] [13; 10])].
Definition some_end : list Z := bytes "+ %1".
Lemma some_parts_ok : Forall part_ok some_parts /\ some_end <> [] /\ trimmed some_end /\ tidy None some_end = true /\
  joined [] some_parts some_end = bytes "f(%1, %2) + %1".
Proof.
  split; [|split; [discriminate|]; split; [split; reflexivity|]; split; reflexivity].
  apply Forall_cons; [|apply Forall_cons; [|constructor]].
  - split; [reflexivity|]. split; [cbn; unfold slash; lia | reflexivity].
  - split; [reflexivity|]. split; [cbn; unfold slash; lia|]. split; [repeat constructor | right; reflexivity].
Qed.
Definition arg_text : list (list Z * gap) := [(bytes "x ", Comment (bytes " a, b ")); (bytes "+ (1,", Comment (bytes "*"))].
Lemma arg_text_ok : argument_parts 0 arg_text (bytes " 2)") /\ joined [] arg_text (bytes " 2)") = bytes "x + (1, 2)".
Proof.
  split; [|vm_compute; reflexivity]. cbn [argument_parts arg_text].
  split; [cbn; unfold slash; lia|]. split; [reflexivity|]. exists 0%nat. split; [reflexivity|].
  split; [cbn; unfold slash; lia|]. split; [reflexivity|]. exists 1%nat. split; reflexivity.
Qed.
