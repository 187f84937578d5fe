(** Numbers in exponential form, as text. *)
From Verif Require Import Base.
Definition is_digit (c : Z) : Prop := 48 <= c <= 57.
(** The value of a sequence of digits. *)
Definition val (ds : list Z) : Z := fold_left (fun a c => 10 * a + (c - 48)) ds 0.
(** [exponential mark el t neg M k X]: [t] is, after blanks, an optional minus sign, a digit, a point, [k] > 0 digits, the letter [mark], a sign
    and [el] digits.  It denotes M * 10^(X-k), negative if [neg]. *)
Inductive exponential (mark : Z) (el : nat) : list Z -> bool -> Z -> nat -> Z -> Prop :=
  | Exponential : forall (blanks : nat) (neg : bool) d0 ds (xneg : bool) xs,
      Forall is_digit (d0 :: ds) -> ds <> [] -> Forall is_digit xs -> length xs = el ->
      exponential mark el (repeat 32 blanks ++ (if neg then [45] else []) ++ d0 :: 46 :: ds ++ mark :: (if xneg then 45 else 43) :: xs)
        neg (val (d0 :: ds)) (length ds) (if xneg then - val xs else val xs).
(** Right adjusted in a field of [n] characters. *)
Definition adjusted (t : list Z) (n : Z) : Prop := exists b r, t = repeat 32 b ++ r /\ hd_error r <> Some 32 /\ Z.of_nat b = Z.max 0 (n - Z.of_nat (length r)).
(** How many significant digits are computed: what fits into the field [n], but from 15 to 17 for LONGREAL and from 6 to 9 for REAL. *)
Definition precision (long neg : bool) (n : Z) : Z :=
  let room := (if neg then n - 1 else n) - (if long then 6 else 5) in
  if long then Z.max 15 (Z.min 17 room) else Z.max 6 (Z.min 9 room).
(** The character codes of a text. *)
From Coq Require Import Ascii String.
Fixpoint text (s : string) : list Z := match s with EmptyString => [] | String c s => Z.of_nat (nat_of_ascii c) :: text s end.
