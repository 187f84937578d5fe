(** Patterns: "*" (42) stands for any characters, "?" (63) for one character, any other character for itself. *)
From Verif Require Import Base.
Inductive matches : list Z -> list Z -> Prop :=
| m_nil : matches [] []
| m_many : forall p u s, matches p s -> matches (42 :: p) (u ++ s)
| m_one : forall p c s, matches p s -> matches (63 :: p) (c :: s)
| m_self : forall p c s, c <> 42 -> c <> 63 -> matches p s -> matches (c :: p) (c :: s).
