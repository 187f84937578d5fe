(** Lexicographic order on character sequences. *)
From Verif Require Import Base.

(** [s] comes before [t]: [s] is a proper prefix of [t], or at the first difference [s] has the smaller character. *)
Definition lex_lt (s t : list Z) : Prop :=
  (exists c r, t = s ++ c :: r) \/
  (exists p c d r1 r2, s = p ++ c :: r1 /\ t = p ++ d :: r2 /\ c < d).
