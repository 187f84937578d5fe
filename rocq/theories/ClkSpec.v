(** Specification for C86: times of day, time stamps and intervals. *)
From Verif Require Import Base CalSpec.

(** A time of day, the seconds since midnight, and the form of an Oberon time. *)
Definition clock (t : Z * Z * Z) : Prop := let '(h, m, s) := t in 0 <= h < 24 /\ 0 <= m < 60 /\ 0 <= s < 60.
Definition seconds (t : Z * Z * Z) : Z := let '(h, m, s) := t in 3600 * h + 60 * m + s.
Definition packT (t : Z * Z * Z) : Z := let '(h, m, s) := t in (h * 64 + m) * 64 + s.
(** Some days later or earlier. *)
Definition days_later (x : date) (k : Z) (z : date) : Prop :=
  0 <= k /\ after gregorian x (Z.to_nat k) z \/ k < 0 /\ after gregorian z (Z.to_nat (- k)) x.
(** A pair of days and milliseconds, in milliseconds; normalised: less than a day of milliseconds. *)
Definition msec (a : Z * Z) : Z := fst a * (24 * 60 * 60 * 1000) + snd a.
Definition normal (a : Z * Z) : Prop := 0 <= snd a < 24 * 60 * 60 * 1000.
(** What can be done to a time stamp. *)
Inductive op := Plus (i : Z * Z) | Minus (i : Z * Z).
Definition effect (o : op) : Z := match o with Plus i => msec i | Minus i => - msec i end.
Definition operand (o : op) : Z * Z := match o with Plus i => i | Minus i => i end.
