(** Model of the typed reads and writes of src/runtime/Files.Mod (594-715) on top of the buffered file of FilesModel.
    INTEGER has [iw] bits and LONGINT [lw] bits (16/32 in the Oberon-2 model, 32/64 in the component model);
    [rc] says whether the module was compiled with range checks (OPV.Mod 270-274: CHR becomes __CHR or a plain cast).
    Only the little-endian branch of FlipBytes is modelled.  The local array b of the Read procedures is not
    initialised: its previous content is the parameter [g]. *)
From Verif Require Import Base ArrZ ArithModel FilesModel.

(** OPV.Mod 270-274. *)
Definition CHRx (rc : bool) (x : Z) : res Z := if rc then CHR_inline x else Ok (wrap_u 8 x).

(** Array b after ReadBytes stored xs into it. *)
Definition filled (xs g : list Z) : list Z := xs ++ skipn (length xs) g.

(** Files.Mod 604-606, 662-664 [ReadBool], [WriteBool]: one byte, unchanged. *)
Definition WriteBool (f : file) (r : rider) (x : bool) : res (file * rider) := Write f r (if x then 1 else 0).
Definition ReadBool (f : file) (r : rider) : res (bool * file * rider) :=
  let* (b, f, r) := Read f r in Ok (negb (b =? 0), f, r).

(** Files.Mod 666-670, 608-612 [WriteInt], [ReadInt]; C: [b[0] = __CHR(x); b[1] = __CHR(__ASHR(x, 8))] and
    [*x = (INT16)b[0] + __ASHL((INT16)b[1], 8)]. *)
Definition WriteInt (rc : bool) (f : file) (r : rider) (x : Z) : res (file * rider) :=
  let* b0 := CHRx rc x in
  let* h := ASHR x 8 in let* b1 := CHRx rc h in
  WriteBytes f r [b0; b1] 2.
Definition ReadInt (iw : Z) (f : file) (r : rider) (g : list Z) : res (Z * file * rider) :=
  let* (xs, f, r) := ReadBytes f r 2 2 in
  let b := filled xs g in
  let* h := ASHL (ix b 1) 8 in
  Ok (wrap_s iw (ix b 0 + h), f, r).

(** Files.Mod 672-677, 614-618 [WriteLInt], [ReadLInt]. *)
Definition WriteLInt (rc : bool) (f : file) (r : rider) (x : Z) : res (file * rider) :=
  let* b0 := CHRx rc x in
  let* h := ASHR x 8 in let* b1 := CHRx rc h in
  let* h := ASHR x 16 in let* b2 := CHRx rc h in
  let* h := ASHR x 24 in let* b3 := CHRx rc h in
  WriteBytes f r [b0; b1; b2; b3] 4.
Definition long4 (b : list Z) : res Z :=
  let* h1 := ASHL (ix b 1) 8 in
  let* h2 := ASHL (ix b 2) 16 in
  let* h3 := ASHL (ix b 3) 24 in
  Ok (ix b 0 + h1 + h2 + h3).
Definition ReadLInt (lw : Z) (f : file) (r : rider) (g : list Z) : res (Z * file * rider) :=
  let* (xs, f, r) := ReadBytes f r 4 4 in
  let* l := long4 (filled xs g) in
  Ok (wrap_s lw l, f, r).

(** Files.Mod 679-693, 620-628 [WriteSet], [ReadSet]; a set of [sw] bits is its bit pattern.  In both data models
    SIZE(SET) # SIZE(INTEGER), so the set goes through SET64 and a LONGINT of [lw] bits. *)
Definition WriteSet (rc : bool) (lw : Z) (f : file) (r : rider) (x : Z) : res (file * rider) :=
  WriteLInt rc f r (wrap_s lw x).
Definition ReadSet (lw sw : Z) (f : file) (r : rider) (g : list Z) : res (Z * file * rider) :=
  let* (l, f, r) := ReadLInt lw f r g in Ok (wrap_u sw l, f, r).

(** Files.Mod 594-601, 630-638, 695-703: REAL and LONGREAL as the sequence of their 4 or 8 bytes (little-endian host:
    FlipBytes is SYSTEM.MOVE). *)
Definition WriteRaw (f : file) (r : rider) (x : list Z) : res (file * rider) := WriteBytes f r x (zlen x).
Definition ReadRaw (n : Z) (f : file) (r : rider) (g : list Z) : res (list Z * file * rider) :=
  let* (xs, f, r) := ReadBytes f r n n in Ok (filled xs g, f, r).

(** Files.Mod 711-715 [WriteNum]: C: [while (x < -64 || x > 63) { Write(__CHR(__MASK(x, -128) + 128)); x = __ASHR(x, 7) }]. *)
Fixpoint writenum_loop (rc : bool) (fuel : nat) (f : file) (r : rider) (x : Z) : res (file * rider) :=
  match fuel with
  | O => Fuel
  | S k =>
      if (x <? -64) || (x >? 63) then
        let* c := CHRx rc (Z.land x 127 + 128) in
        let* (f, r) := Write f r c in
        let* x := ASHR x 7 in
        writenum_loop rc k f r x
      else
        let* c := CHRx rc (Z.land x 127) in
        Write f r c
  end.
Definition WriteNum (rc : bool) (f : file) (r : rider) (x : Z) : res (file * rider) := writenum_loop rc 11 f r x.

(** Files.Mod 653-660 [ReadNum(R, x)], LEN(x) = lx; s, b: INT8, q: INT64.  Eleven continuation bytes already shift by
    more than 63, which is undefined, so fuel 12 is never used up. *)
Fixpoint readnum_loop (fuel : nat) (f : file) (r : rider) (q s : Z) : res (Z * file * rider) :=
  match fuel with
  | O => Fuel
  | S k =>
      let* (c, f, r) := Read f r in
      let b := wrap_s 8 c in
      if b <? 0 then
        let* h := ASH (b + 128) s in
        let* q := chk 64 (q + h) in
        readnum_loop k f r q (wrap_s 8 (s + 7))
      else
        let* d := ASHR b 6 in
        let* e := ASHL d 6 in
        let* h := ASH (Z.land b 63 - e) s in
        let* q := chk 64 (q + h) in
        Ok (q, f, r)
  end.
Definition ReadNum (f : file) (r : rider) (lx : Z) : res (Z * file * rider) :=
  let* (q, f, r) := readnum_loop 12 f r 0 0 in
  let* _ := Assert (lx <=? 8) in
  Ok (wrap_s (8 * lx) q, f, r).

(** Files.Mod 705-709 [WriteString(R, x)]; i is an INTEGER, so LEN(x) <= 32767 is assumed where it matters. *)
Fixpoint strlen_loop (fuel : nat) (x : list Z) (i : Z) : res Z :=
  match fuel with
  | O => Fuel
  | S k => let* c := getA x i in if c =? 0 then Ok i else strlen_loop k x (i + 1)
  end.
Definition WriteString (f : file) (r : rider) (x : list Z) : res (file * rider) :=
  let* i := strlen_loop (S (length x)) x 0 in
  WriteBytes f r x (i + 1).

(** Files.Mod 640-644 [ReadString]. *)
Fixpoint readstring_loop (fuel : nat) (f : file) (r : rider) (x : list Z) (i : Z) : res (list Z * file * rider) :=
  match fuel with
  | O => Fuel
  | S k =>
      let* (ch, f, r) := Read f r in
      let* x := setA x i ch in
      if ch =? 0 then Ok (x, f, r) else readstring_loop k f r x (i + 1)
  end.
Definition ReadString (f : file) (r : rider) (x : list Z) : res (list Z * file * rider) :=
  readstring_loop (S (length x)) f r x 0.

(** Files.Mod 646-651 [ReadLine].  The loop returns i after the last INC. *)
Fixpoint readline_loop (fuel : nat) (f : file) (r : rider) (x : list Z) (i : Z) : res (list Z * Z * file * rider) :=
  match fuel with
  | O => Fuel
  | S k =>
      let* _ := getA x i in
      let* (ch, f, r) := Read f r in
      let* x := setA x i ch in
      if (ch =? 0) || (ch =? 10) then Ok (x, i + 1, f, r) else readline_loop k f r x (i + 1)
  end.
Definition ReadLine (f : file) (r : rider) (x : list Z) : res (list Z * file * rider) :=
  let* (x, i, f, r) := readline_loop (S (length x)) f r x 0 in
  let* c := getA x (i - 1) in
  let i := if c =? 10 then i - 1 else i in
  let* i := (if i >? 0 then let* c := getA x (i - 1) in Ok (if c =? 13 then i - 1 else i) else Ok i) in
  let* x := setA x i 0 in
  Ok (x, f, r).
