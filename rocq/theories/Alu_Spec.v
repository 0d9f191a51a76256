(* Two's complement arithmetic on words of [w] bits, said without the interpreter: C12, C13. *)
From Verif Require Import Base Rt_Model Interp_Model.

Definition in_word (w r : Z) : Prop := - 2 ^ (w - 1) <= r < 2 ^ (w - 1).
(* [r] is the w-bit representative of [z]. *)
Definition is_word (w r z : Z) : Prop := in_word w r /\ (r - z) mod 2 ^ w = 0.
Definition bitwise (w : Z) (g : bool -> bool -> bool) (x y r : Z) : Prop :=
  in_word w r /\ forall n, 0 <= n < w -> Z.testbit r n = g (Z.testbit x n) (Z.testbit y n).
(* Truncating division. *)
Definition divides_as (x y q r : Z) : Prop := x = y * q + r /\ Z.abs r < Z.abs y /\ 0 <= r * x.

Inductive wop := WAdd | WSub | WMul | WDiv | WMod | WAnd | WOr | WXor | WShl | WSshr | WShr.
Definition word_result (w : Z) (o : wop) (x y r : Z) : Prop :=
  match o with
  | WAdd => is_word w r (x + y)
  | WSub => is_word w r (x - y)
  | WMul => is_word w r (x * y)
  | WDiv => in_word w r /\ exists m, divides_as x y r m
  | WMod => in_word w r /\ exists q, divides_as x y q r
  | WAnd => bitwise w andb x y r
  | WOr => bitwise w orb x y r
  | WXor => bitwise w xorb x y r
  | WShl => is_word w r (x * 2 ^ y)
  | WSshr => in_word w r /\ r * 2 ^ y <= x < (r + 1) * 2 ^ y           (* arithmetic: floor *)
  | WShr => in_word w r /\ r mod 2 ^ w = (x mod 2 ^ w) / 2 ^ y         (* logical *)
  end.
Definition word_error (w : Z) (o : wop) (x y : Z) : option err :=
  match o with
  | WDiv | WMod => if y =? 0 then Some DIVIDE_BY_ZERO
                   else if (y =? -1) && (x =? - 2 ^ (w - 1)) then Some INTEGER_OVERFLOW else None
  | _ => None
  end.
Definition shift_in_range (w : Z) (o : wop) (y : Z) : Prop :=
  match o with WShl | WSshr | WShr => 0 <= y < w | _ => True end.

Definition put_reg (r : reg) (v : Z) (st : ist) : ist :=
  match r with Pri => mkIst (rts st) v (alt st) | Alt => mkIst (rts st) (pri st) v end.
Definition get_reg (r : reg) (st : ist) : Z := match r with Pri => pri st | Alt => alt st end.

(* Which operation each 32-bit instruction performs: operator, operands, destination. *)
Definition operation32 (i : instr) (st : ist) : option (wop * Z * Z * reg) :=
  let p := pri st in let a := alt st in
  match i with
  | ADD => Some (WAdd, p, a, Pri) | SUB => Some (WSub, p, a, Pri) | SUB_ALT => Some (WSub, a, p, Pri)
  | SMUL => Some (WMul, p, a, Pri)
  | SDIV_ALT_I32 => Some (WDiv, a, p, Pri) | SMOD_ALT_I32 => Some (WMod, a, p, Pri)
  | AND => Some (WAnd, p, a, Pri) | OR => Some (WOr, p, a, Pri) | XOR => Some (WXor, p, a, Pri)
  | SHL => Some (WShl, p, a, Pri) | SSHR => Some (WSshr, p, a, Pri) | SHR => Some (WShr, p, a, Pri)
  | SHL_C r c => Some (WShl, get_reg r st, c, r)
  | NEG => Some (WSub, 0, p, Pri) | INVERT => Some (WXor, p, -1, Pri)
  | ADD_C c => Some (WAdd, p, c, Pri) | SMUL_C c => Some (WMul, p, c, Pri)
  | INCR r => Some (WAdd, get_reg r st, 1, r) | DECR r => Some (WSub, get_reg r st, 1, r)
  | _ => None
  end.

(* Comparisons: the relation whose truth value goes to PRI. *)
Definition relation (i : instr) (st : ist) : option Prop :=
  let p := pri st in let a := alt st in
  match i with
  | CMP Eq => Some (p = a) | CMP Neq => Some (p <> a)
  | CMP Sless => Some (p < a) | CMP Sleq => Some (p <= a)
  | CMP Sgrtr => Some (p > a) | CMP Sgeq => Some (p >= a)
  | CMP Zero => Some (p = 0) | CMP NotZero => Some (p <> 0)
  | NOT => Some (p = 0)
  | EQ_C r c => Some (get_reg r st = c)
  | _ => None
  end.

(* 64-bit values in memory: two adjacent cells, low cell first. *)
Definition value64 (s : rt) (a v : Z) : Prop :=
  in_word 64 v /\ v mod 2 ^ 64 = load32 (mem s) a mod 2 ^ 32 + 2 ^ 32 * (load32 (mem s) (a + 4) mod 2 ^ 32).
Definition operation64 (o : bin64) : wop * bool :=   (* true: operands are ALT, PRI *)
  match o with
  | Add64 => (WAdd, false) | SubAlt64 => (WSub, true) | Mul64 => (WMul, false)
  | DivAlt64 => (WDiv, true) | ModAlt64 => (WMod, true)
  | And64 => (WAnd, false) | Or64 => (WOr, false) | Xor64 => (WXor, false)
  | Shl64 => (WShl, false) | Sshr64 => (WSshr, false) | Shr64 => (WShr, false)
  end.
Definition relation64 (c : cmpop) (x y : Z) : option Prop :=
  match c with
  | Eq => Some (x = y) | Neq => Some (x <> y) | Sless => Some (x < y) | Sleq => Some (x <= y)
  | Sgrtr => Some (x > y) | Sgeq => Some (x >= y) | _ => None
  end.
(* Eight addressable bytes. *)
Definition readable64 (s : rt) (a : Z) : Prop :=
  (0 <= a < stp s /\ ~ (hp s <= a < sp s)) /\ (0 <= a + 7 < stp s /\ ~ (hp s <= a + 7 < sp s)).
(* Only the eight bytes at [a] differ, and they now hold [v]. *)
Definition stores64 (s s' : rt) (a v : Z) : Prop :=
  value64 s' a v /\ (forall x, x < a \/ a + 8 <= x -> mem s' x = mem s x) /\ s' = set_mem (mem s') s.
