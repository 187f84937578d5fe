(** The MD5 message digest as defined in RFC 1321, on words of 32 bits from 0 to 2^32 - 1. *)
From Verif Require Import Base ArrZ.

Definition W : Z := 2 ^ 32.
Definition not_ (x : Z) : Z := W - 1 - x.
Definition F (x y z : Z) : Z := Z.lor (Z.land x y) (Z.land (not_ x) z).
Definition G (x y z : Z) : Z := Z.lor (Z.land x z) (Z.land y (not_ z)).
Definition H (x y z : Z) : Z := Z.lxor (Z.lxor x y) z.
Definition I (x y z : Z) : Z := Z.lxor y (Z.lor x (not_ z)).
(** A word turned left by s places. *)
Definition rotate (x s : Z) : Z := (x * 2 ^ s) mod W + x / 2 ^ (32 - s).

(** The constants: the integer part of 2^32 times |sin i|, i = 1 to 64.  The sine is summed by its series x - x^3/3! + x^5/5! - ...
    with 320 fractional bits and 150 terms. *)
Fixpoint series (n : nat) (term x k : Z) : Z :=
  match n with
  | O => 0
  | S n => term + series n (- (term * x * x / ((k + 1) * (k + 2)))) x (k + 2)
  end.
Definition sine (x : Z) : Z := series 150 (x * 2 ^ 320) x 1.
Definition constant (i : Z) : Z := Z.abs (sine i) / 2 ^ (320 - 32).

(** Step i = 0 .. 63. *)
Definition function (i : Z) : Z -> Z -> Z -> Z :=
  if i <? 16 then F else if i <? 32 then G else if i <? 48 then H else I.
Definition index (i : Z) : Z :=
  if i <? 16 then i else if i <? 32 then (5 * i + 1) mod 16 else if i <? 48 then (3 * i + 5) mod 16 else (7 * i) mod 16.
Definition count (i : Z) : Z :=
  nth (Z.to_nat (i mod 4)) (if i <? 16 then [7; 12; 17; 22] else if i <? 32 then [5; 9; 14; 20] else if i <? 48 then [4; 11; 16; 23] else [6; 10; 15; 21]) 0.
Definition step (X : list Z) (st : Z * Z * Z * Z) (i : Z) : Z * Z * Z * Z :=
  let '(a, b, c, d) := st in
  (d, (b + rotate ((a + function i b c d + ix X (index i) + constant (i + 1)) mod W) (count i)) mod W, b, c).
Definition numbers : list Z := map Z.of_nat (seq 0 64).
(** A block of 16 words is added to the state. *)
Definition compress (st : Z * Z * Z * Z) (X : list Z) : Z * Z * Z * Z :=
  let '(a, b, c, d) := st in
  let '(a', b', c', d') := fold_left (step X) numbers st in
  ((a + a') mod W, (b + b') mod W, (c + c') mod W, (d + d') mod W).

(** Bytes to words, the lowest byte first. *)
Definition word (b0 b1 b2 b3 : Z) : Z := b0 + 256 * (b1 + 256 * (b2 + 256 * b3)).
Fixpoint words (l : list Z) : list Z :=
  match l with
  | b0 :: b1 :: b2 :: b3 :: l => word b0 b1 b2 b3 :: words l
  | _ => []
  end.
(** [n] bytes of a number, the lowest first. *)
Fixpoint le (n : nat) (x : Z) : list Z :=
  match n with O => [] | S n => x mod 256 :: le n (x / 256) end.

(** A message that is a whole number of blocks of 64 bytes. *)
Fixpoint process (n : nat) (st : Z * Z * Z * Z) (l : list Z) : Z * Z * Z * Z :=
  match n with
  | O => st
  | S n => process n (compress st (words (firstn 64 l))) (skipn 64 l)
  end.
(** Padding: a byte of 128, as few zeros as make the total a multiple of 64, the length in bits in 8 bytes. *)
Definition padding (len : Z) : list Z := 128 :: repeat 0 (Z.to_nat ((55 - len) mod 64)) ++ le 8 (8 * len).
Definition initial : Z * Z * Z * Z := (1732584193, 4023233417, 2562383102, 271733878).
Definition md5 (m : list Z) : list Z :=
  let p := m ++ padding (zlen m) in
  let '(a, b, c, d) := process (length p / 64) initial p in
  le 4 a ++ le 4 b ++ le 4 c ++ le 4 d.
