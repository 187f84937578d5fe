(** What a time means: microseconds since the beginning of 1970; an epoch has 2^31 seconds. *)
From Verif Require Import Base.
Definition micros (epoch second usec : Z) : Z := (epoch * 2 ^ 31 + second) * 1000000 + usec.
(** Seconds and microseconds are in their ranges. *)
Definition proper (epoch second usec : Z) : Prop := in_int 32 epoch /\ 0 <= second < 2 ^ 31 /\ 0 <= usec < 1000000.
(** The values of a time record. *)
Definition values (epoch second usec : Z) : Prop := in_int 32 epoch /\ in_int 32 second /\ in_int 32 usec.
