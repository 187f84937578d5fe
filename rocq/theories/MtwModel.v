(** Random numbers: src/library/misc/MersenneTwister.Mod.
    SET and LONGINT have 32 bits; a SET is the number with these bits, 0 <= y < 2^32.  The masks have the values of the comments in lines 173-179 of the module body. *)
From Verif Require Import Base ArrZ.
Definition MATRIXA : Z := 2567483615.
Definition UPPERMASK : Z := 2147483648.
Definition LOWERMASK : Z := 2147483647.
Definition MASKB : Z := 2636928640.
Definition MASKC : Z := 4022730752.
(** SYSTEM.VAL between SET and LONGINT: the same bits. *)
Definition toInt (y : Z) : Z := wrap_s 32 y.
Definition toSet (x : Z) : Z := wrap_u 32 x.
(** SYSTEM.LSH of a LONGINT: SYSTEM.h 175-177. *)
Definition Lsh (x n : Z) : Z := if 0 <=? n then wrap_s 32 (Z.shiftl (wrap_u 32 x) n) else wrap_s 32 (Z.shiftr (wrap_u 32 x) (- n)).
(** The global variables mt and mti (lines 31-32). *)
Record state := { mt : list Z; mti : Z }.
(** The module body: mt is zeroed, mti says that no seed was set. *)
Definition start : state := {| mt := repeat 0 624; mti := 625 |}.
(** MersenneTwister.Mod 38-55 [SetSeed], the FOR statement; [n] rounds are left. *)
Fixpoint seed_loop (n : nat) (i seed : Z) (a : list Z) : res (list Z) :=
  match n with
  | O => Ok a
  | S n =>
    let* a := setA a i (Z.land (toSet seed) 4294901760) in
    let* p := chk 32 (69069 * seed) in let* seed := chk 32 (p + 1) in
    let* v := getA a i in
    let* q := chk 32 (seed * toInt 4294901760) in
    let* a := setA a i (Z.lor v (toSet (Lsh q (-16)))) in
    let* p := chk 32 (69069 * seed) in let* seed := chk 32 (p + 1) in
    seed_loop n (i + 1) seed a
  end.
Definition SetSeed (seed : Z) (st : state) : res state := let* a := seed_loop 624 0 seed (mt st) in Ok {| mt := a; mti := 624 |}.
(** MersenneTwister.Mod 58-66 [SetSeeds]. *)
Fixpoint copy_loop (n : nat) (i : Z) (seedarray a : list Z) : res (list Z) :=
  match n with
  | O => Ok a
  | S n => let* s := getA seedarray i in let* a := setA a i s in copy_loop n (i + 1) seedarray a
  end.
Definition SetSeeds (seedarray : list Z) (st : state) : res state := let* a := copy_loop 624 0 seedarray (mt st) in Ok {| mt := a; mti := 624 |}.
(** The right side of the assignments in lines 85-89, 96-98 and 100-102; a, b, c are the three elements. *)
Definition mix (a b c : Z) : res Z :=
  let y := Z.lor (Z.land a UPPERMASK) (Z.land b LOWERMASK) in
  let* m := getA [0; MATRIXA] (toInt (Z.land y 1)) in
  Ok (Z.lxor (Z.lxor c (toSet (Lsh (toInt y) (-1)))) m).
(** The FOR statements in lines 84-94 and 95-99: [n] rounds from kk on. *)
Fixpoint gen (n : nat) (kk off : Z) (a : list Z) : res (list Z) :=
  match n with
  | O => Ok a
  | S n =>
    let* x := getA a kk in let* y := getA a (kk + 1) in let* z := getA a (kk + off) in
    let* v := mix x y z in
    let* a := setA a kk v in
    gen n (kk + 1) off a
  end.
(** MersenneTwister.Mod 84-102, the renewal of the array. *)
Definition refill (a : list Z) : res (list Z) :=
  let* a := gen 227 0 397 a in
  let* a := gen 396 227 (397 - 624) a in
  let* x := getA a 623 in let* y := getA a 0 in let* z := getA a 396 in
  let* v := mix x y z in
  setA a 623 v.
(** MersenneTwister.Mod 106-109. *)
Definition tempered (y : Z) : Z :=
  let y := Z.lxor y (toSet (Lsh (toInt y) (-11))) in
  let y := Z.lxor y (Z.land (toSet (Lsh (toInt y) 7)) MASKB) in
  let y := Z.lxor y (Z.land (toSet (Lsh (toInt y) 15)) MASKC) in
  Z.lxor y (toSet (Lsh (toInt y) (-18))).
(** MersenneTwister.Mod 69-111 [Int]. *)
Definition Int (st : state) : res (Z * state) :=
  let* st := (if 624 <=? mti st then
      let* st := (if mti st =? 625 then SetSeed 4357 st else Ok st) in
      let* a := refill (mt st) in Ok {| mt := a; mti := 0 |}
    else Ok st) in
  let* y := getA (mt st) (mti st) in
  Ok (toInt (tempered y), {| mt := mt st; mti := mti st + 1 |}).
(** [n] calls of Int. *)
Fixpoint calls (n : nat) (st : state) : res (list Z) :=
  match n with
  | O => Ok []
  | S n => let* r := Int st in let (v, st) := (r : Z * state) in let* l := calls n st in Ok (v :: l)
  end.
(** MersenneTwister.Mod 129-140 [IntRange]: the two upper bytes of X replace the two lower bytes of Range (SIZE(INTEGER) is 2, little endian). *)
Definition IntRange (Range : Z) (st : state) : res (Z * state) :=
  let* r := Int st in let (v, st) := (r : Z * state) in
  let* X := chk 32 (Range * v) in
  Ok (wrap_s 32 (Z.lor (Z.land (wrap_u 32 Range) 4294901760) (Z.shiftr (wrap_u 32 X) 16)), st).
(** MersenneTwister.Mod 143-149 [Real]: the numerator; the denominator is 2^31.  The rounding of the numerator to a REAL is left out. *)
Definition Real (st : state) : res (Z * state) := Int st.
