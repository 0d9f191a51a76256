(* What an operator means on two cells, said with integers only, and what it is to run a piece of
   straight-line code: C27, C28. *)
From Verif Require Import Base Rt_Model Interp_Model Fold_Model.

Inductive opres := OVal (v : Z) | OErr (e : err) | OUndef.

Definition truth (P : bool) : Z := if P then 1 else 0.
Definition shifted (n v : Z) : opres := if (0 <=? n) && (n <=? 31) then OVal v else OUndef.
Definition divided (x y v : Z) : opres :=
  if y =? 0 then OErr DIVIDE_BY_ZERO
  else if (x =? - 2 ^ 31) && (y =? -1) then OErr INTEGER_OVERFLOW
  else OVal v.

(* 32-bit cells: sums, differences and products modulo 2^32; division truncates. *)
Definition means (op : binop) (x y : Z) : opres :=
  match op with
  | BAdd => OVal (wrap32 (x + y))
  | BSub => OVal (wrap32 (x - y))
  | BMul => OVal (wrap32 (x * y))
  | BDiv => divided x y (Z.quot x y)
  | BMod => divided x y (Z.rem x y)
  | BAnd => OVal (Z.land x y)
  | BOr => OVal (Z.lor x y)
  | BXor => OVal (Z.lxor x y)
  | BShl => shifted y (wrap32 (x * 2 ^ y))
  | BSshr => shifted y (x / 2 ^ y)
  | BShr => shifted y (wrap32 ((x mod 2 ^ 32) / 2 ^ y))
  | BEq => OVal (truth (x =? y))
  | BNe => OVal (truth (negb (x =? y)))
  | BLt => OVal (truth (x <? y))
  | BLe => OVal (truth (x <=? y))
  | BGt => OVal (truth (y <? x))
  | BGe => OVal (truth (y <=? x))
  end.
Definition umeans (op : unop) (x : Z) : Z :=
  match op with
  | UInv => - x - 1
  | UNot => truth (x =? 0)
  | UNeg => wrap32 (- x)
  end.

(* Decode and execute [code] from cell [pc] to its end. *)
Fixpoint runs (strict : bool) (fe : fenv) (nt : Z -> option native) (mi : meth)
              (fuel : nat) (code : list Z) (pc : Z) : IM unit :=
  match fuel with
  | O => undef UBAssert
  | S f =>
    if Z.of_nat (length code) <=? pc then ret tt
    else match decode code pc with
         | None => undef UBAssert
         | Some i => exec strict fe nt mi i;;; runs strict fe nt mi f code (pc + insn_size code pc)
         end
  end.
Definition does strict fe nt mi (code : list Z) : IM unit :=
  runs strict fe nt mi (S (length code)) code 0.

(* Folding gives what the code gives: the same value, an error report for a run-time error,
   undefined for undefined. *)
Definition agrees (f : fold) (r : res ist unit) (s : ist) : Prop :=
  match f with
  | Folded v => exists s', r = Ok tt s' /\ pri s' = v /\ rts s' = rts s
  | Reported _ => exists s' e, r = Fail e s' /\ (e = DIVIDE_BY_ZERO \/ e = INTEGER_OVERFLOW)
  | NotConst => True
  | Trap => r = UB UBArith
  | Uninit => False
  end.

(* A finite 32-bit float scaled by 2^149, exactly: sign, 8 exponent bits, 23 fraction bits. *)
Definition f32_scaled (cell : Z) : Z :=
  let b := cell mod 2 ^ 32 in
  let e := (b / 2 ^ 23) mod 2 ^ 8 in
  let m := b mod 2 ^ 23 in
  let a := if e =? 0 then m else (m + 2 ^ 23) * 2 ^ (e - 1) in
  if b / 2 ^ 31 =? 1 then - a else a.
Definition f32_finite (cell : Z) : Prop := ((cell mod 2 ^ 32) / 2 ^ 23) mod 2 ^ 8 <> 255.
(* The host's float comparisons and tests are those of IEEE 754 (vm/interpreter.cpp:1337-1342,
   1390-1414). *)
Definition ieee (fe : fenv) : Prop :=
  (forall p a, f32_finite p -> f32_finite a ->
     f2 fe 181 p a = truth (f32_scaled p <? f32_scaled a)) /\
  (forall p, f32_finite p -> f1 fe 173 p = truth (negb (f32_scaled p =? 0))).
