(** What output should look like, independently of buffers. *)
From Verif Require Import Base ArrZ.

(** A digit character and its value in bases up to 16 (upper case). *)
Definition digval (c : Z) : option Z :=
  if (48 <=? c) && (c <=? 57) then Some (c - 48) else if (65 <=? c) && (c <=? 70) then Some (c - 55) else None.
(** [numeral base ds v]: the characters ds are digits of that base and denote v, most significant first. *)
Inductive numeral (base : Z) : list Z -> Z -> Prop :=
  | numeral_nil : numeral base [] 0
  | numeral_snoc : forall ds v c d, numeral base ds v -> digval c = Some d -> 0 <= d < base -> numeral base (ds ++ [c]) (v * base + d).
(** No superfluous zero in front. *)
Definition no_leading_zero (ds : list Z) : Prop := match ds with [] => False | [_] => True | c :: _ => c <> 48 end.
(** The text of a decimal integer. *)
Definition is_int_text (x : Z) (t : list Z) : Prop :=
  exists ds, t = (if x <? 0 then [45] else []) ++ ds /\ numeral 10 ds (Z.abs x) /\ no_leading_zero ds.
(** t right-adjusted in a field of n characters. *)
Definition padded (n : Z) (t : list Z) : list Z := repeat 32 (Z.to_nat (n - zlen t)) ++ t.
