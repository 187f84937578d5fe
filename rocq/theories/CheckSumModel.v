(** The check sums of module ethZlib.  The module is part of the library for -O2 only (src/tools/make/oberon.mk 353-375): LONGINT and SET have 32 bits. *)
From Verif Require Import Base ArrZ.

(** LONGINT as a set and back: SYSTEM.VAL between types of the same size is a cast, OPV.Mod 521-530. *)
Definition set_of (x : Z) : Z := wrap_u 32 x.
Definition int_of (s : Z) : Z := wrap_s 32 s.
(** SYSTEM.h 175-177. *)
Definition LSHL (x n : Z) : Z := wrap_s 32 (Z.shiftl (wrap_u 32 x) n).
Definition LSHR (x n : Z) : Z := wrap_s 32 (Z.shiftr (wrap_u 32 x) n).

(** ethZlib.Mod 69-96 [Adler32].  Characters are numbers below 256.  [inner]: the REPEAT loop, once per unit of fuel. *)
Definition base : Z := 65521.
Definition nmax : Z := 5552.
Fixpoint inner (fuel : nat) (buf : list Z) (s1 s2 offset k : Z) : res (Z * Z * Z) :=
  match fuel with
  | O => Fuel
  | S f =>
      let* d := getA buf offset in
      let* s1 := chk 32 (s1 + d) in
      let* s2 := chk 32 (s2 + s1) in
      let offset := offset + 1 in
      let k := k - 1 in
      if k =? 0 then Ok (s1, s2, offset) else inner f buf s1 s2 offset k
  end.
Fixpoint outer (fuel : nat) (buf : list Z) (s1 s2 offset len : Z) : res (Z * Z) :=
  match fuel with
  | O => Fuel
  | S f =>
      if len >? 0 then
        let k := if len <? nmax then len else nmax in
        let len := len - k in
        let* (s1, s2, offset) := inner (Z.to_nat k) buf s1 s2 offset k in
        outer f buf (s1 mod base) (s2 mod base) offset len
      else Ok (s1, s2)
  end.
Definition Adler32 (adler : Z) (buf : list Z) (offset len : Z) : res Z :=
  if len <? 0 then Ok 1 else
  let s1 := adler mod 65536 in
  let s2 := LSHR adler 16 mod 65536 in
  let* (s1, s2) := outer (S (Z.to_nat len)) buf s1 s2 offset len in
  chk 32 (LSHL s2 16 + s1).

(** ethZlib.Mod 122-137 [InitCRCTable]: an entry, and the table as the loop leaves it. *)
Definition poly : Z := 3988292384.
Fixpoint bits (n : nat) (c : Z) : Z :=
  match n with
  | O => c
  | S n => bits n (if Z.odd c then int_of (Z.lxor (set_of poly) (set_of (LSHR c 1))) else LSHR c 1)
  end.
Definition CRCTable : list Z := map (fun n => bits 8 (Z.of_nat n)) (seq 0 256).
(** ethZlib.Mod 140-155 [CRC32]; a length below zero leaves the WHILE loop at once. *)
Fixpoint crc_loop (n : nat) (crc : Z) (buf : list Z) (offset : Z) : res Z :=
  match n with
  | O => Ok crc
  | S n =>
      let* d := getA buf offset in
      let idx := int_of (Z.lxor (set_of crc) (set_of d)) mod 256 in
      let* e := getA CRCTable idx in
      crc_loop n (int_of (Z.lxor (set_of e) (set_of (LSHR crc 8)))) buf (offset + 1)
  end.
Definition CRC32 (crc : Z) (buf : list Z) (offset len : Z) : res Z :=
  if offset <? 0 then Ok 0 else
  let* crc := crc_loop (Z.to_nat len) (int_of (Z.lxor (set_of crc) 4294967295)) buf offset in
  Ok (int_of (Z.lxor (set_of crc) 4294967295)).
