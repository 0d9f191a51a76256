(* What C07 and C08 ask of copying strings. *)
From Verif Require Import Base Rt_Model Str_Model.

(* A C string: bytes, none of them zero. *)
Definition c_string (src : list Z) : Prop := Forall (fun b => 0 < b < 256) src.

(* [text] and a terminator are what is now at [a]; nothing else changed. *)
Definition copied (s s' : rt) (a : Z) (text : list Z) : Prop :=
  s' = set_mem (mem s') s /\
  forall x, mem s' x = if (a <=? x) && (x <? a + Z.of_nat (length text) + 1) then nth (Z.to_nat (x - a)) (text ++ [0]) 0 else mem s x.

(* The same when bytes up to [limit] after the text may have been overwritten. *)
Definition copied_within (s s' : rt) (a : Z) (text : list Z) (limit : Z) : Prop :=
  s' = set_mem (mem s') s /\
  (forall i, (i < length text)%nat -> mem s' (a + Z.of_nat i) = nth i text 0) /\
  mem s' (a + Z.of_nat (length text)) = 0 /\
  (forall x, x < a \/ a + limit <= x -> mem s' x = mem s x).

(* An address the host may hand out: in memory, not in the gap between heap and stack. *)
Definition plugin_address (s : rt) (a : Z) : Prop := 0 <= a < mem_size s /\ ~ (hp s <= a < sp s).

(* UTF-8 characters by the shape of their bytes (overlong and out-of-range ones included). *)
Definition continues (b : Z) : Prop := 0x80 <= b < 0xC0.
Inductive utf8_char : list Z -> Prop :=
| u1 b : 0 < b < 0x80 -> utf8_char [b]
| u2 l b : 0xC0 <= l < 0xE0 -> continues b -> utf8_char [l; b]
| u3 l b c : 0xE0 <= l < 0xF0 -> continues b -> continues c -> utf8_char [l; b; c]
| u4 l b c d : 0xF0 <= l < 0xF8 -> continues b -> continues c -> continues d -> utf8_char [l; b; c; d].
Definition utf8_text (chars : list (list Z)) : Prop := Forall utf8_char chars.

(* [text] is the longest prefix of whole characters that fits in [room] bytes. *)
Definition longest_fit (chars : list (list Z)) (room : Z) (text : list Z) : Prop :=
  exists k, (k <= length chars)%nat /\ text = concat (firstn k chars) /\ Z.of_nat (length text) <= room /\
    (k = length chars \/ room < Z.of_nat (length (concat (firstn (S k) chars)))).
