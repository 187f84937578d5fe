(** Output of real numbers: src/runtime/Out.Mod 93-222.  LONGREAL is IEEE double with rounding to nearest, from Flocq (which has one NaN). *)
From Verif Require Import Base.
From Flocq Require Import IEEE754.BinarySingleNaN.
Definition prec53 : FLX.Prec_gt_0 53 := eq_refl.
Definition emax1024 : Prec_lt_emax 53 1024 := eq_refl.
#[export] Existing Instance prec53.
#[export] Existing Instance emax1024.
Definition dbl := binary_float 53 1024.
Definition dmul : dbl -> dbl -> dbl := Bmult mode_NE.
Definition ddiv : dbl -> dbl -> dbl := Bdiv mode_NE.
Definition dadd : dbl -> dbl -> dbl := Bplus mode_NE.
Definition dint (m e : Z) : dbl := binary_normalize 53 1024 _ _ mode_NE m e false.
(** The constants 1.0D0, 1.0D1, 0.5D0 and 0.1D0. *)
Definition one : dbl := dint 1 0.
Definition ten : dbl := dint 10 0.
Definition half : dbl := dint 1 (-1).
Definition tenth : dbl := ddiv one ten.
(** Out.Mod 108-116. *)
Fixpoint ten_loop (f : nat) (e : Z) (r power : dbl) : res dbl :=
  match f with
  | O => Fuel
  | S f => if e >? 0 then ten_loop f (e / 2) (if Z.odd e then dmul r power else r) (dmul power power) else Ok r
  end.
Definition Ten (e : Z) : res dbl := ten_loop 16 e one ten.
(** Out.Mod 118: conversion in C, undefined beyond 64 bits. *)
Definition Entier64 (x : dbl) : res Z := if is_finite x then chk 64 (Btrunc x) else UB.
(** Out.Mod 93-96: the buffer of 30 characters is written from its end; [b] is the part written. *)
Definition push (c : Z) (b : list Z) : res (list Z) := if Z.of_nat (length b) <? 30 then Ok (c :: b) else UB.
Definition digit (n : Z) (b : list Z) : res (list Z) := push (n mod 10 + 48) b.
Fixpoint digits (k : nat) (n : Z) (b : list Z) : res (list Z * Z) :=
  match k with O => Ok (b, n) | S k => let* b := digit n b in digits k (n / 10) b end.
(** Out.Mod 143-145: the exponent field, from the parts of the number. *)
Definition field (x : dbl) : Z :=
  match x with
  | B754_zero _ => 0
  | B754_infinity _ | B754_nan => 2047
  | B754_finite _ m e _ => if Z.pos m <? 2 ^ 52 then 0 else e + 1075
  end.
(** Out.Mod 201: trailing zeroes. *)
Fixpoint drop (f : nat) (m d dr : Z) : res (Z * Z) :=
  match f with
  | O => Fuel
  | S f => if (d >? dr) && (m mod 10 =? 0) then drop f (m / 10) (d - 1) dr else Ok (m, d)
  end.
(** Out.Mod 174-196: scaling; the digits of the exponent are written in between.  The change of [e] in line 193 has no effect. *)
Definition scale (x : dbl) (e el d : Z) : res (list Z * Z) :=
  let e := (e - 1023) * 77 / 256 in
  let* x := if 0 <=? e then let* t := Ten e in Ok (ddiv x t) else let* t := Ten (- e) in Ok (dmul t x) in
  let '(x, e) := if Bleb ten x then (dmul tenth x, e + 1) else (x, e) in
  let* (b, _) := digits (Z.to_nat el) (Z.abs e) [] in
  let* b := push (if e <? 0 then 45 else 43) b in
  let* x0 := Ten (d - 1) in
  let x := dmul x0 x in
  let x := dadd x half in
  let x := if Bleb (dmul ten x0) x then dmul tenth x else x in
  let* m := Entier64 x in
  Ok (b, m).
(** Out.Mod 120-214; the result is the characters written.  The field width is not reduced modulo 2^16: the theorems exclude widths near MIN(INTEGER). *)
Definition RealP (x : dbl) (n : Z) (long : bool) : res (list Z) :=
  let e := field x in
  let nn := Bsign x && negb (is_nan x) in
  let n := if nn then n - 1 else n in
  let* b :=
    if e =? 2047 then Ok (if is_nan x then [78; 97; 78] else [73; 110; 102; 105; 110; 105; 116; 121])
    else
      let el := if long then 3 else 2 in
      let dr := Z.min (n - (if long then 6 else 5)) (if long then 17 else 9) in
      let d := Z.max dr (if long then 15 else 6) in
      let* (b, m) :=
        if e =? 0 then let* (b, _) := digits (Z.to_nat el) 0 [] in let* b := push 43 b in Ok (b, 0)
        else scale (if nn then Bopp x else x) e el d in
      let* b := push (if long then 68 else 69) b in
      let dr := Z.max dr 2 in
      let* (m, d) := drop 20 m d dr in
      let* (b, m) := digits (Z.to_nat (d - 1)) m b in
      let* b := push 46 b in
      digit m b in
  Ok (repeat 32 (Z.to_nat (n - Z.of_nat (length b))) ++ (if nn then [45] else []) ++ b).
Definition Real (x : dbl) (n : Z) : res (list Z) := RealP x n false.
Definition LongReal (x : dbl) (n : Z) : res (list Z) := RealP x n true.
