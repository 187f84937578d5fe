(** Specification for C70: the set of numbers an array of words stands for. *)
From Verif Require Import Base ArrZ.

(** Element x is bit x MOD b of word x DIV b. *)
Definition mem (b : Z) (s : list Z) (x : Z) : Prop :=
  0 <= x < zlen s * b /\ Z.testbit (ix s (x / b)) (x mod b) = true.
(** The numbers an array has room for. *)
Definition room (b : Z) (s : list Z) (x : Z) : Prop := 0 <= x < zlen s * b.
Definition words (b : Z) (s : list Z) : Prop := Forall (in_uint b) s.
(** The number of elements. *)
Definition card (p : Z -> Prop) (c : Z) : Prop := exists l, NoDup l /\ (forall x, List.In x l <-> p x) /\ c = zlen l.
(** The (INTEGER, SET) widths of Sets and ethSets, and those of ulmSets. *)
Definition widths (n b : Z) : Prop := n = 16 /\ b = 32 \/ n = 32 /\ b = 64 \/ n = 32 /\ b = 32.
