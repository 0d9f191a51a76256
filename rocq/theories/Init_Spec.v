(* What a script relies on about array initialisers: C40. *)
From Verif Require Import Base Rt_Model.

(* A template as the compiler emits it: [iv] indirection cells and [copy] data cells in static data
   at [dat], then [fill] cells of value [v].  [materialised m m' arr ...]: memory [m'] holds the
   array at [arr], made from the template in [m]; nothing else changed. *)
Record materialised (m m' : memory) (arr dat iv copy fill v : Z) : Prop := {
  ma_iv : forall k, 0 <= k < iv ->
    load32 m' (arr + 4 * k) = wrap32 (load32 m (dat + 4 * k) + arr);
  ma_copy : forall k, iv <= k < iv + copy ->
    load32 m' (arr + 4 * k) = load32 m (dat + 4 * k);
  ma_fill : forall k, iv + copy <= k < iv + copy + fill ->
    load32 m' (arr + 4 * k) = v;
  ma_rest : forall x, x < arr \/ arr + 4 * (iv + copy + fill) <= x -> m' x = m x
}.

(* The destination fits the plugin's memory, the template fits static data. *)
Definition init_fits (s : rt) (arr dat iv copy fill : Z) : Prop :=
  0 <= arr /\ ~ (hp s <= arr < sp s) /\ arr < mem_size s /\
  arr + 4 * (iv + copy + fill) <= mem_size s /\
  (iv + copy = 0 \/ 0 <= dat /\ dat + 4 * (iv + copy) <= data_size s).
