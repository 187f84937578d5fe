(** What an array shows: the characters before the first 0X. *)
From Verif Require Import Base.
Definition shows (a s : list Z) : Prop := ~ In 0 s /\ exists q, a = s ++ 0 :: q.
(** The array a became b, of the same length, and shows s as far as there is room. *)
Definition becomes (a b s : list Z) : Prop := length b = length a /\ shows b (firstn (length a - 1) s).
Definition letter (c : Z) : Prop := 65 <= c <= 90 \/ 97 <= c <= 122.
Definition upper (c : Z) : Z := if (97 <=? c) && (c <=? 122) then c - 32 else c.
(** The string x occurs in s at position k. *)
Definition occurs (x s : list Z) (k : Z) : Prop := exists u v, s = u ++ x ++ v /\ Z.of_nat (length u) = k.
