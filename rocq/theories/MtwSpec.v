(** The generator MT19937 of M. Matsumoto and T. Nishimura as a sequence of words of 32 bits. *)
From Verif Require Import Base.
Definition word (x : Z) : Prop := 0 <= x < 2 ^ 32.
(** The upper bit of a and the lower 31 bits of b make a word y; c is combined with the upper 31 bits of y and, if y is odd, with a constant. *)
Definition twist (a b c : Z) : Z :=
  let y := 2 ^ 31 * (a / 2 ^ 31) + b mod 2 ^ 31 in
  Z.lxor (Z.lxor c (y / 2)) (if Z.odd y then 2567483615 else 0).
Definition sequence (seeds : list Z) (x : Z -> Z) : Prop :=
  (forall k, 0 <= k < 624 -> x k = nth (Z.to_nat k) seeds 0) /\
  (forall k, 0 <= k -> x (k + 624) = twist (x k) (x (k + 1)) (x (k + 397))).
Definition temper (y : Z) : Z :=
  let y := Z.lxor y (y / 2 ^ 11) in
  let y := Z.lxor y (Z.land (y * 2 ^ 7 mod 2 ^ 32) 2636928640) in
  let y := Z.lxor y (Z.land (y * 2 ^ 15 mod 2 ^ 32) 4022730752) in
  Z.lxor y (y / 2 ^ 18).
(** The integer with the same bits. *)
Definition signed (y : Z) : Z := if y <? 2 ^ 31 then y else y - 2 ^ 32.
