(** Specification for C69: the UTF-8 encoding (RFC 2279: up to six bytes for 31 bits). *)
From Verif Require Import Base ArrZ.

Definition utf8 (u : Z) : list Z :=
  if u <? 0x80 then [u]
  else if u <? 0x800 then [0xC0 + u / 2 ^ 6; 0x80 + u mod 2 ^ 6]
  else if u <? 0x10000 then [0xE0 + u / 2 ^ 12; 0x80 + u / 2 ^ 6 mod 2 ^ 6; 0x80 + u mod 2 ^ 6]
  else if u <? 0x200000 then
    [0xF0 + u / 2 ^ 18; 0x80 + u / 2 ^ 12 mod 2 ^ 6; 0x80 + u / 2 ^ 6 mod 2 ^ 6; 0x80 + u mod 2 ^ 6]
  else if u <? 0x4000000 then
    [0xF8 + u / 2 ^ 24; 0x80 + u / 2 ^ 18 mod 2 ^ 6; 0x80 + u / 2 ^ 12 mod 2 ^ 6;
     0x80 + u / 2 ^ 6 mod 2 ^ 6; 0x80 + u mod 2 ^ 6]
  else
    [0xFC + u / 2 ^ 30; 0x80 + u / 2 ^ 24 mod 2 ^ 6; 0x80 + u / 2 ^ 18 mod 2 ^ 6;
     0x80 + u / 2 ^ 12 mod 2 ^ 6; 0x80 + u / 2 ^ 6 mod 2 ^ 6; 0x80 + u mod 2 ^ 6].
(** A character number. *)
Definition ucs (u : Z) : Prop := 0 <= u < 2 ^ 31.
(** The encoding of a string. *)
Definition text (us : list Z) : list Z := flat_map utf8 us.
(** The two integer models: (INTEGER, LONGINT) = (16, 32) or (32, 64) bits. *)
Definition model (i w : Z) : Prop := i = 16 /\ w = 32 \/ i = 32 /\ w = 64.
(** A nonzero character number, as it occurs in a string. *)
Definition char (u : Z) : Prop := 0 < u < 2 ^ 31.
(** What follows a string in its array: nothing, or 0X and anything. *)
Definition ends (t : list Z) : Prop := t = [] \/ exists r, t = 0 :: r.
(** A character in the 8-bit set; "_" if it is not there. *)
Definition latin (u : Z) : Z := if u <? 256 then u else 95.
