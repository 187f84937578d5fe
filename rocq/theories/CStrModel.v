(** Model of string comparison and COPY of the generated C (src/runtime/SYSTEM.h). *)
From Verif Require Import Base.

(** SYSTEM.h 147-154 [__str_cmp]: the do-while loop over index i, here structural recursion over what is left
    of both arrays; reading past the end of an array is [UB]. *)
Fixpoint str_cmp (x y : list Z) : res Z :=
  match x, y with
  | ch1 :: x', ch2 :: y' =>
      if ch1 =? 0 then Ok (- ch2)
      else if ch1 =? ch2 then str_cmp x' y'
      else Ok (ch1 - ch2)
  | _, _ => UB
  end.

(** OPV.Mod 590-594 emits [__STRCMP(a,b) <rel> 0] for string relations. *)
Inductive rel := REq | RNeq | RLt | RLe | RGt | RGe.
Definition zrel (r : rel) (v : Z) : bool :=
  match r with
  | REq => v =? 0 | RNeq => negb (v =? 0) | RLt => v <? 0 | RLe => v <=? 0 | RGt => v >? 0 | RGe => v >=? 0
  end.
Definition str_rel (r : rel) (x y : list Z) : res bool := let* v := str_cmp x y in Ok (zrel r v).

(** SYSTEM.h 161-162 [__COPY(s, d, n)], the while loop; [i] is [_i], [t] is [_t] = n-1. *)
Fixpoint copy_loop (fuel : nat) (a b : list Z) (i t : Z) : res (list Z * Z) :=
  match fuel with
  | O => Fuel
  | S f =>
      if i <? t then
        let* c := rawget a i in
        let* b' := rawset b i c in
        if c =? 0 then Ok (b', i) else copy_loop f a b' (i + 1) t
      else Ok (b, i)
  end.
(** The macro call as emitted by OPV.Mod 839-841: n is LEN(d).  Source and destination are distinct arrays here. *)
Definition COPY (s d : list Z) : res (list Z) :=
  let n := Z.of_nat (length d) in
  let* r := copy_loop (S (length d)) s d 0 (n - 1) in
  let '(b, i) := r in rawset b i 0.
