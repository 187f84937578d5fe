(** Specifications for the arithmetic properties C01-C05, independent of the model. *)
From Verif Require Import Base.

(** [q] and [r] are the quotient and remainder of Oberon's DIV and MOD (floored division). *)
Definition floored (x y q r : Z) : Prop :=
  x = y * q + r /\ (0 < y -> 0 <= r < y) /\ (y < 0 -> y < r <= 0).

(** Element [e] is a member of the set represented by the word [s]. *)
Definition member (e s : Z) : Prop := 0 <= e /\ Z.testbit s e = true.

(** The integer widths of the generated C. *)
Definition int_width (s : Z) : Prop := s = 8 \/ s = 16 \/ s = 32 \/ s = 64.
Definition set_width (s : Z) : Prop := s = 32 \/ s = 64.
