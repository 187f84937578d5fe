(** UTF-8 conversion: src/library/s3/ethUnicode.Mod 8-152.
    The module is built for both integer models: INTEGER and LONGINT (and SET) have 16 and 32 bits,
    or 32 and 64 bits; the parameters [i] and [w] are the two widths.  Range checks (option -r) are
    off, as they are by default: SHORT and CHR cut off the upper bits. *)
From Verif Require Import Base ArrZ.

Definition chr (x : Z) : Z := x mod 256.
(** ethUnicode.Mod 8-10. *)
Definition AND (w a b : Z) : Z := wrap_s w (Z.land (wrap_u w a) (wrap_u w b)).

(** ethUnicode.Mod 31-36; [buf] is ARRAY 6 OF CHAR. *)
Fixpoint enc_loop (fuel : nat) (w i ucs byte mask max : Z) (buf : list Z) : res (Z * Z * Z * list Z) :=
  if ucs >? max then
    match fuel with
    | O => Fuel
    | S k =>
        let* buf1 := setA buf byte (chr (128 + wrap_s i (AND w ucs 63))) in
        enc_loop k w i (ucs / 64) (byte + 1) (mask / 2) (max / 2) buf1
    end
  else Ok (ucs, byte, mask, buf).
(** ethUnicode.Mod 40: FOR i := 0 TO byte, [n] steps left. *)
Fixpoint enc_copy (n : nat) (i : Z) (utf8 buf : list Z) (pos byte : Z) : res (list Z) :=
  match n with
  | O => Ok utf8
  | S k =>
      let* c := getA buf (byte - i) in
      let* u := setA utf8 (pos + i) c in
      enc_copy k (i + 1) u buf pos byte
  end.
(** ethUnicode.Mod 15-47: the result, the array and the position. *)
Definition UCStoUTF8 (w i ucs : Z) (utf8 : list Z) (pos : Z) : res (bool * list Z * Z) :=
  let len := zlen utf8 in
  if ucs <=? 127 then
    if pos + 1 <? len then
      let* u1 := setA utf8 pos (chr (wrap_s i ucs)) in
      let* u2 := setA u1 (pos + 1) 0 in
      Ok (true, u2, pos + 1)
    else Ok (false, utf8, pos)
  else
    let* (t, buf) := enc_loop 8 w i ucs 0 32640 63 [0; 0; 0; 0; 0; 0] in
    let '(ucs1, byte, mask) := t in
    let* buf1 := setA buf byte (chr (mask + wrap_s i ucs1)) in
    if pos + byte + 1 <? len then
      let* u1 := enc_copy (Z.to_nat (byte + 1)) 0 utf8 buf1 pos byte in
      let* u2 := setA u1 (pos + byte + 1) 0 in
      Ok (true, u2, pos + byte + 1)
    else Ok (false, utf8, pos).
(** ethUnicode.Mod 50-59 and 62-71: the same loop over an array of INTEGER or LONGINT. *)
Fixpoint ucs_loop (w i : Z) (ucs utf8 : list Z) (p : Z) : res (list Z) :=
  match ucs with
  | [] => Ok utf8
  | c :: r =>
      let* (t, p1) := UCStoUTF8 w i c utf8 p in
      let (b, u) := t in
      if (b : bool) then ucs_loop w i r u p1 else Ok u
  end.
Definition UCS2toUTF8 (w i : Z) (ucs2 utf8 : list Z) : res (list Z) := ucs_loop w i ucs2 utf8 0.
Definition UCS4toUTF8 (w i : Z) (ucs4 utf8 : list Z) : res (list Z) := ucs_loop w i ucs4 utf8 0.

(** [x IN s] for a SET of [w] bits (src/runtime/SYSTEM.h, the operator of C04). *)
Definition inset (w x s : Z) : bool := (0 <=? x) && (x <? w) && Z.testbit s x.
(** ethUnicode.Mod 87. *)
Fixpoint lead (fuel : nat) (w bytes mask s : Z) : res (Z * Z) :=
  if inset w (7 - bytes) s then
    match fuel with O => Fuel | S k => lead k w (bytes + 1) (mask / 2) s end
  else Ok (bytes, mask).
(** ethUnicode.Mod 90: FOR i := 1 TO bytes-1, [n] steps left. *)
Fixpoint dec_loop (n : nat) (w i : Z) (utf8 : list Z) (p ucs : Z) : res Z :=
  match n with
  | O => Ok ucs
  | S k =>
      let* c := getA utf8 (p + i) in
      let* u := chk w (ucs * 64 + AND w c 63) in
      dec_loop k w (i + 1) utf8 p u
  end.
(** ethUnicode.Mod 75-98: the result, the position and the character. *)
Definition UTF8toUCS (w : Z) (utf8 : list Z) (p ucs : Z) : res (bool * Z * Z) :=
  if p <? zlen utf8 then
    let* b := getA utf8 p in
    if b <? 128 then Ok (true, p + 1, b)
    else
      let* (bytes, mask) := lead 8 w 2 63 (wrap_u w b) in
      let ucs0 := AND w b mask in
      if p + bytes - 1 <? zlen utf8 then
        let* u := dec_loop (Z.to_nat (bytes - 1)) w 1 utf8 p ucs0 in
        Ok (true, p + bytes, u)
      else Ok (false, p, ucs0)
  else Ok (false, p, ucs).
(** ethUnicode.Mod 101-113: the result, the array and the index. *)
Fixpoint ucs2_loop (fuel : nat) (w i : Z) (utf8 ucs2 : list Z) (p idx ucs : Z) : res (bool * list Z * Z) :=
  match fuel with
  | O => Fuel
  | S k =>
      let* (t, u) := UTF8toUCS w utf8 p ucs in
      let (b, p1) := t in
      if (b : bool) && (u >? 0) && (idx <? zlen ucs2 - 1) then
        if u <=? max_int i then
          let* a := setA ucs2 idx (wrap_s i u) in
          ucs2_loop k w i utf8 a p1 (idx + 1) u
        else let* a := setA ucs2 0 0 in Ok (false, a, idx)
      else if idx <? zlen ucs2 then
        let* a := setA ucs2 idx 0 in Ok (true, a, idx + 1)
      else Ok (true, ucs2, idx)
  end.
(** Every turn of the loop reads at least one character. *)
Definition UTF8toUCS2 (w i : Z) (utf8 ucs2 : list Z) (idx : Z) : res (bool * list Z * Z) :=
  ucs2_loop (S (length utf8)) w i utf8 ucs2 0 idx 0.
(** ethUnicode.Mod 117-125: the array and the index.  The element is passed to [UTF8toUCS] as a VAR
    parameter, so it is changed even when the loop ends. *)
Fixpoint ucs4_loop (fuel : nat) (w : Z) (utf8 ucs4 : list Z) (p idx : Z) : res (list Z * Z) :=
  match fuel with
  | O => Fuel
  | S k =>
      if idx <? zlen ucs4 then
        let* old := getA ucs4 idx in
        let* (t, u) := UTF8toUCS w utf8 p old in
        let (b, p1) := t in
        let* a := setA ucs4 idx u in
        if (b : bool) && (u >? 0) then ucs4_loop k w utf8 a p1 (idx + 1)
        else let* a1 := setA a idx 0 in Ok (a1, idx + 1)
      else Ok (ucs4, idx)
  end.
Definition UTF8toUCS4 (w : Z) (utf8 ucs4 : list Z) (idx : Z) : res (list Z * Z) :=
  ucs4_loop (S (length utf8)) w utf8 ucs4 0 idx.
(** ethUnicode.Mod 129-141: the result, the array and [lossy]. *)
Fixpoint ascii_loop (fuel : nat) (w : Z) (utf8 ascii : list Z) (p idx ucs : Z) : res (list Z * Z) :=
  match fuel with
  | O => Fuel
  | S k =>
      if ucs =? 0 then Ok (ascii, idx)
      else
        let* (t, u) := UTF8toUCS w utf8 p ucs in
        let (b, p1) := t in
        if (b : bool) && (idx <? zlen ascii) then
          let* a := setA ascii idx (if (u >=? 0) && (u <? 256) then chr u else 95) in
          ascii_loop k w utf8 a p1 (idx + 1) u
        else Ok (ascii, idx)
  end.
Definition UTF8toASCII (w : Z) (utf8 ascii : list Z) (lossy : bool) : res (bool * list Z * bool) :=
  let* (a, idx) := ascii_loop (S (S (length utf8))) w utf8 ascii 0 0 (-1) in
  let* c := getA a (idx - 1) in
  let* (a1, idx1) :=
    if negb (c =? 0) && (idx <? zlen a) then let* a1 := setA a idx 0 in Ok (a1, idx + 1) else Ok (a, idx) in
  let* c1 := getA a1 (idx1 - 1) in
  Ok (c1 =? 0, a1, lossy).
(** ethUnicode.Mod 148: the length of the string; traps if it has no 0X. *)
Fixpoint ascii_len (fuel : nat) (ascii : list Z) (l : Z) : res Z :=
  let* c := getA ascii l in
  if c =? 0 then Ok l else match fuel with O => Fuel | S k => ascii_len k ascii (l + 1) end.
(** ethUnicode.Mod 143-152: the characters up to the 0X, without it, go through an array of INTEGER. *)
Definition ASCIItoUTF8 (w i : Z) (ascii utf8 : list Z) : res (list Z) :=
  let* l := ascii_len (length ascii) ascii 0 in
  UCS2toUTF8 w i (firstn (Z.to_nat l) ascii) utf8.
