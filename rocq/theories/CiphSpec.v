(** The sum modulo 2 of two sequences of bytes, as long as both have bytes. *)
From Verif Require Import Base.
Definition bytes (l : list Z) : Prop := Forall (fun b => 0 <= b < 256) l.
Definition sum (a b : list Z) : list Z := map (fun p => Z.lxor (fst p) (snd p)) (combine a b).
