(** Specification for C85: calendars. *)
From Verif Require Import Base.

(** Year, month, day. *)
Definition date : Type := Z * Z * Z.
(** The calendar: which years are leap years. *)
Definition gregorian (y : Z) : Prop := (4 | y) /\ ~ (100 | y) \/ (400 | y).
Definition julian (y : Z) : Prop := (4 | y).
Section Calendar.
Variable leap : Z -> Prop.
(** The number of days of a month. *)
Inductive month_days : Z -> Z -> Z -> Prop :=
  | md_31 y m : In m [1; 3; 5; 7; 8; 10; 12] -> month_days y m 31
  | md_30 y m : In m [4; 6; 9; 11] -> month_days y m 30
  | md_29 y : leap y -> month_days y 2 29
  | md_28 y : ~ leap y -> month_days y 2 28.
Definition valid (x : date) : Prop := let '(y, m, d) := x in exists l, month_days y m l /\ 1 <= d <= l.
(** The next day. *)
Inductive next : date -> date -> Prop :=
  | nx_day y m d l : month_days y m l -> d < l -> next (y, m, d) (y, m, d + 1)
  | nx_month y m l : month_days y m l -> m < 12 -> next (y, m, l) (y, m + 1, 1)
  | nx_year y : next (y, 12, 31) (y + 1, 1, 1).
(** The [n]-th day after. *)
Inductive after : date -> nat -> date -> Prop :=
  | af_0 x : after x 0 x
  | af_S x y z n : after x n y -> next y z -> after x (S n) z.
End Calendar.
(** Earlier. *)
Definition earlier (x z : date) : Prop :=
  let '(y, m, d) := x in let '(y', m', d') := z in y < y' \/ y = y' /\ (m < m' \/ m = m' /\ d < d').
(** The calendar of England: Julian up to 2 September 1752, then Gregorian from the 14th. *)
Definition english (x : date) : Prop := valid julian x /\ earlier x (1752, 9, 3) \/ valid gregorian x /\ ~ earlier x (1752, 9, 14).
Inductive english_next : date -> date -> Prop :=
  | en_julian x z : english x -> earlier z (1752, 9, 3) -> next julian x z -> english_next x z
  | en_switch : english_next (1752, 9, 2) (1752, 9, 14)
  | en_gregorian x z : ~ earlier x (1752, 9, 14) -> english x -> next gregorian x z -> english_next x z.
(** An Oberon date: years since 1900, month and day in fields of 4 and 5 bits. *)
Definition pack (x : date) : Z := let '(y, m, d) := x in ((y - 1900) * 16 + m) * 32 + d.
(** Dates for which the day numbers are claimed: from 1901 up to 28 February 2100. *)
Definition in_range (x : date) : Prop := valid gregorian x /\ 1901 <= fst (fst x) /\ earlier x (2100, 3, 1).
(** The date some months later; a day that the month does not have becomes the last one. *)
Inductive months_later : date -> Z -> date -> Prop :=
  | ml y m d k y' m' l : 1 <= m' <= 12 -> 12 * y' + m' = 12 * y + m + k -> month_days gregorian y' m' l -> months_later (y, m, d) k (y', m', Z.min d l).
