(** Packing of dates and times, and their printed form. *)
From Verif Require Import Base ArithModel.

(** Platformunix.Mod 171-175 [YMDHMStoClock]; bootstrap/unix-88/Platform.c 245-249.  LONGINT is INT32; [int] is the conversion of the 64 bit result of
    __ASHL or SYSTEM_MOD to INT32. *)
Definition YMDHMStoClock (ye mo da ho mi se : Z) : res (Z * Z) :=
  let* y := MOD_inline 32 ye 100 in
  let* y := ASHL y 9 in
  let* m := chk 32 (mo + 1) in
  let* m := ASHL m 5 in
  let* d := chk 64 (y + m) in
  let* d := chk 64 (d + da) in
  let* h := ASHL ho 12 in
  let* i := ASHL mi 6 in
  let* t := chk 64 (h + i) in
  let* t := chk 64 (t + se) in
  Ok (wrap_s 32 t, wrap_s 32 d).
(** SYSTEM.h 223 [__MASK]: x & ~m. *)
Definition MASK (x m : Z) : Z := Z.land x (Z.lnot m).
(** Texts.Mod 705-708 [WritePair]; the text written is returned. *)
Definition WritePair (ch x : Z) : res (list Z) :=
  let* q := DIV_inline 32 x 10 in
  let* a := CHR_inline (q + 48) in
  let* r := MOD_inline 32 x 10 in
  let* b := CHR_inline (r + 48) in
  Ok [ch; a; b].
(** Texts.Mod 703-713 [WriteDate]; bootstrap/unix-88/Texts.c 1381-1394. *)
Definition WriteDate (t d : Z) : res (list Z) :=
  let* p1 := WritePair 32 (MASK d (-32)) in
  let* m := ASHR d 5 in
  let* p2 := WritePair 46 (MASK m (-16)) in
  let* y := ASHR d 9 in
  let* p3 := WritePair 46 (MASK y (-128)) in
  let* h := ASHR t 12 in
  let* p4 := WritePair 32 (MASK h (-32)) in
  let* i := ASHR t 6 in
  let* p5 := WritePair 58 (MASK i (-64)) in
  let* p6 := WritePair 58 (MASK t (-64)) in
  Ok (p1 ++ p2 ++ p3 ++ p4 ++ p5 ++ p6).
