(** What the check sums are, from RFC 1950 (Adler-32) and the comment in ethZlib.Mod 99-120 (CRC-32): independent of the code. *)
From Verif Require Import Base ArrZ.

(** Adler-32: two sums modulo 65521, of the bytes and of the partial sums. *)
Fixpoint adler (a b : Z) (l : list Z) : Z * Z :=
  match l with
  | [] => (a, b)
  | d :: l => adler ((a + d) mod 65521) ((b + (a + d)) mod 65521) l
  end.
(** Both sums in one LONGINT, the second in the upper half. *)
Definition packed (p : Z * Z) : Z := wrap_s 32 (snd p * 65536 + fst p).

(** Polynomials over the field of two elements: coefficients, the highest power first.  Addition is exclusive or from the front. *)
Fixpoint addp (p q : list bool) : list bool :=
  match p, q with
  | x :: p, y :: q => xorb x y :: addp p q
  | [], q => q
  | p, [] => p
  end.
(** x^26+x^23+x^22+x^16+x^12+x^11+x^10+x^8+x^7+x^5+x^4+x^2+x+1, 32 coefficients; the divisor is this plus x^32. *)
Definition powers : list nat := [26; 23; 22; 16; 12; 11; 10; 8; 7; 5; 4; 2; 1; 0]%nat.
Definition tail_of_divisor : list bool := map (fun k => existsb (Nat.eqb (31 - k)) powers) (seq 0 32).
(** Division as at school: while there are more than 32 coefficients, the first one is removed, with the divisor subtracted if it is 1. *)
Fixpoint remainder (n : nat) (p : list bool) : list bool :=
  match n, p with
  | S n, c :: p => remainder n (if c then addp p tail_of_divisor else p)
  | _, _ => p
  end.
Definition divide (p : list bool) : list bool := remainder (length p - 32) p.

(** The bits of a number from the lowest, and those of a sequence of bytes. *)
Definition bitlist (n : nat) (x : Z) : list bool := map (fun i => Z.testbit x (Z.of_nat i)) (seq 0 n).
Definition message (l : list Z) : list bool := flat_map (bitlist 8) l.
(** CRC-32 of a message: the message times x^32, the first 32 coefficients changed by [start], modulo the divisor. *)
Definition crc_of (start m : list bool) : list bool := divide (addp start (m ++ repeat false 32)).
