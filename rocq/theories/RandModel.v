(** Random numbers: oocRandomNumbers and the uniform numbers of ethRandomNumbers.  Both are built for -O2 only (src/tools/make/oberon.mk 240-375):
    LONGINT has 32 bits, REAL 24 significant bits, LONGREAL 53.  Floating-point operations are those of the standard library's SpecFloat,
    rounding to nearest even. *)
From Coq Require Import SpecFloat.
From Verif Require Import Base.

Definition modulo : Z := 2147483647.
Definition single (m : Z) : spec_float := binary_normalize 24 128 m 0 false.
Definition double (m : Z) : spec_float := binary_normalize 53 1024 m 0 false.

(** oocRandomNumbers.Mod 21-31 [PutSeed]: the new z. *)
Definition PutSeed (seed : Z) : Z :=
  let seed := seed mod modulo in
  if seed =? 0 then 1 else seed.
(** oocRandomNumbers.Mod 33-49 [NextRND]. *)
Definition NextRND (z : Z) : res Z :=
  let a := 16807 in
  let q := 127773 in
  let r := 2836 in
  let hi := z / q in
  let lo := z mod q in
  let* al := chk 32 (a * lo) in
  let* rh := chk 32 (r * hi) in
  let* test := chk 32 (al - rh) in
  if test >? 0 then Ok test else chk 32 (test + modulo).
(** oocRandomNumbers.Mod 51-57 [RND]: the new z and the result. *)
Definition RND (z range : Z) : res (Z * Z) :=
  let* z := NextRND z in
  Ok (z, z mod range).
(** oocRandomNumbers.Mod 59-64 [Random]; the constant 1 / (modulo-1) is folded by the compiler to a REAL (OPB.Mod 514-519), and is
    taken to denote the same REAL in the C text. *)
Definition Random (z : Z) : res (Z * spec_float) :=
  let* z := NextRND z in
  let* d := chk 32 (z - 1) in
  Ok (z, SFmul 24 128 (single d) (SFdiv 24 128 (single 1) (single (modulo - 1)))).

(** ethRandomNumbers.Mod 12-21 [Uniform]; SHORT of a LONGREAL rounds to REAL. *)
Definition to_single (x : spec_float) : spec_float :=
  match x with
  | S754_finite s m e => binary_normalize 24 128 (if s then Zneg m else Zpos m) e s
  | x => x
  end.
Definition Uniform (Z0 : Z) : res (Z * spec_float) :=
  let a := 16807 in
  let q := modulo / a in
  let r := modulo mod a in
  let* al := chk 32 (a * (Z0 mod q)) in
  let* rh := chk 32 (r * (Z0 / q)) in
  let* g := chk 32 (al - rh) in
  let* z := if g >? 0 then Ok g else chk 32 (g + modulo) in
  Ok (z, to_single (SFdiv 53 1024 (SFmul 53 1024 (double z) (double 1)) (double modulo))).
(** ethRandomNumbers.Mod 32-35 [InitSeed]. *)
Definition InitSeed (seed : Z) : Z := seed.
