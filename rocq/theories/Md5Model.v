(** MD5 digests, module ethMD5.  The module is part of the library for -O2 only (src/tools/make/oberon.mk 353-375): LONGINT and SET have 32 bits.
    The procedures add LONGINTs that do not fit; what such an addition gives in C is left to the parameter [strict]:
    undefined by the language, or the wrapped sum that compilers without optimisation of overflow produce. *)
From Verif Require Import Base ArrZ.

Section Md5.
Variable strict : bool.
Definition add (x y : Z) : res Z := if strict then chk 32 (x + y) else Ok (wrap_s 32 (x + y)).

(** SYSTEM.VAL between LONGINT and SET is a cast (OPV.Mod 521-530); the complement of a set of 32 bits. *)
Definition set_of (x : Z) : Z := wrap_u 32 x.
Definition int_of (s : Z) : Z := wrap_s 32 s.
Definition compl (s : Z) : Z := Z.lxor s 4294967295.
(** ethMD5.Mod 60-78 [F1] to [F4]. *)
Definition F1 (x y z : Z) : Z := int_of (Z.lor (Z.land (set_of x) (set_of y)) (Z.land (compl (set_of x)) (set_of z))).
Definition F2 (x y z : Z) : Z := int_of (Z.lor (Z.land (set_of x) (set_of z)) (Z.land (set_of y) (compl (set_of z)))).
Definition F3 (x y z : Z) : Z := int_of (Z.lxor (Z.lxor (set_of x) (set_of y)) (set_of z)).
Definition F4 (x y z : Z) : Z := int_of (Z.lxor (set_of y) (Z.lor (set_of x) (compl (set_of z)))).
(** SYSTEM.h 179-181 with a count of 4 to 23. *)
Definition ROT (x n : Z) : Z := wrap_s 32 (Z.lor (wrap_u 32 (Z.shiftl (wrap_u 32 x) n)) (Z.shiftr (wrap_u 32 x) (32 - n))).
(** ethMD5.Mod 80-106 [STEP1] to [STEP4]: the new value of w. *)
Definition STEP (f : Z -> Z -> Z -> Z) (w x y z data s : Z) : res Z :=
  let* w := add w (f x y z) in
  let* w := add w data in
  add (ROT w s) x.
Definition func (n : Z) : Z -> Z -> Z -> Z :=
  if n =? 1 then F1 else if n =? 2 then F2 else if n =? 3 then F3 else F4.
(** ethMD5.Mod 113-179: the calls, in order: which of the four procedures, the index into the block, the constant, the count.
    The registers of the calls are a b c d, d a b c, c d a b, b c d a and so on: each call gets the previous four turned by one place. *)
Definition calls : list (Z * Z * Z * Z) :=
  [(1, 0, (-680876936), 7); (1, 1, (-389564586), 12); (1, 2, 606105819, 17); (1, 3, (-1044525330), 22);
   (1, 4, (-176418897), 7); (1, 5, 1200080426, 12); (1, 6, (-1473231341), 17); (1, 7, (-45705983), 22);
   (1, 8, 1770035416, 7); (1, 9, (-1958414417), 12); (1, 10, (-42063), 17); (1, 11, (-1990404162), 22);
   (1, 12, 1804603682, 7); (1, 13, (-40341101), 12); (1, 14, (-1502002290), 17); (1, 15, 1236535329, 22);
   (2, 1, (-165796510), 5); (2, 6, (-1069501632), 9); (2, 11, 643717713, 14); (2, 0, (-373897302), 20);
   (2, 5, (-701558691), 5); (2, 10, 38016083, 9); (2, 15, (-660478335), 14); (2, 4, (-405537848), 20);
   (2, 9, 568446438, 5); (2, 14, (-1019803690), 9); (2, 3, (-187363961), 14); (2, 8, 1163531501, 20);
   (2, 13, (-1444681467), 5); (2, 2, (-51403784), 9); (2, 7, 1735328473, 14); (2, 12, (-1926607734), 20);
   (3, 5, (-378558), 4); (3, 8, (-2022574463), 11); (3, 11, 1839030562, 16); (3, 14, (-35309556), 23);
   (3, 1, (-1530992060), 4); (3, 4, 1272893353, 11); (3, 7, (-155497632), 16); (3, 10, (-1094730640), 23);
   (3, 13, 681279174, 4); (3, 0, (-358537222), 11); (3, 3, (-722521979), 16); (3, 6, 76029189, 23);
   (3, 9, (-640364487), 4); (3, 12, (-421815835), 11); (3, 15, 530742520, 16); (3, 2, (-995338651), 23);
   (4, 0, (-198630844), 6); (4, 7, 1126891415, 10); (4, 14, (-1416354905), 15); (4, 5, (-57434055), 21);
   (4, 12, 1700485571, 6); (4, 3, (-1894986606), 10); (4, 10, (-1051523), 15); (4, 1, (-2054922799), 21);
   (4, 8, 1873313359, 6); (4, 15, (-30611744), 10); (4, 6, (-1560198380), 15); (4, 13, 1309151649, 21);
   (4, 4, (-145523070), 6); (4, 11, (-1120210379), 10); (4, 2, 718787259, 15); (4, 9, (-343485551), 21)].
Fixpoint run (l : list (Z * Z * Z * Z)) (block : list Z) (w x y z : Z) : res (Z * Z * Z * Z) :=
  match l with
  | [] => Ok (w, x, y, z)
  | (n, k, t, s) :: l =>
      let* e := getA block k in
      let* data := add e t in
      let* w := STEP (func n) w x y z data s in
      run l block z w x y
  end.
(** ethMD5.Mod 108-183 [Transform]. *)
Definition Transform (buf block : list Z) : res (list Z) :=
  let* a0 := getA buf 0 in let* b0 := getA buf 1 in let* c0 := getA buf 2 in let* d0 := getA buf 3 in
  let* (a, b, c, d) := run calls block a0 b0 c0 d0 in
  let* a := add a0 a in let* buf := setA buf 0 a in
  let* b := add b0 b in let* buf := setA buf 1 b in
  let* c := add c0 c in let* buf := setA buf 2 c in
  let* d := add d0 d in setA buf 3 d.

(** ethMD5.Mod 42-58 [ByteReverse]: 256*t is __ASHL of 64 bits (SYSTEM.h 183), so that only the assignment to t narrows. *)
Fixpoint ByteReverse (n : nat) (bs : list Z) (adr : Z) (out : list Z) (i : Z) : res (list Z) :=
  match n with
  | O => Ok out
  | S n =>
      let* b0 := rawget bs adr in let* b1 := rawget bs (adr + 1) in
      let* b2 := rawget bs (adr + 2) in let* b3 := rawget bs (adr + 3) in
      let t := b3 in
      let t := wrap_s 32 (256 * t + b2) in
      let t := wrap_s 32 (256 * t + b1) in
      let t := wrap_s 32 (256 * t + b0) in
      let* out := setA out i t in
      ByteReverse n bs (adr + 4) out (i + 1)
  end.

Record context := { buf : list Z; bits : Z; inn : list Z }.
(** ethMD5.Mod 30-40 [New]: NEW clears the record. *)
Definition New : context :=
  {| buf := [1732584193; -271733879; -1732584194; 271733878]; bits := 0; inn := repeat 0 64 |}.

(** Lines 203-204, 229-230, 235-236 and 259-260: the block in the context is digested.  [loc] is the content of the local array "in" at that time. *)
Definition digest_block (loc : list Z) (c : context) (i : list Z) : res (context) :=
  let* block := ByteReverse 16 i 0 loc 0 in
  let* b := Transform (buf c) block in
  Ok {| buf := b; bits := bits c; inn := i |}.

(** ethMD5.Mod 187-210 [Write]; the ASSERT compares the constant 1 with 1. *)
Definition Write (loc : list Z) (c : context) (ch : Z) : res context :=
  let t := bits c in
  let* bs := add t 8 in
  let c := {| buf := buf c; bits := bs; inn := inn c |} in
  let t := (t / 8) mod 64 in
  let plain c := let* i := setA (inn c) 0 ch in Ok {| buf := buf c; bits := bits c; inn := i |} in
  if t >? 0 then
    let t := 64 - t in
    let* i := setA (inn c) (64 - t) ch in
    if 1 <? t then Ok {| buf := buf c; bits := bits c; inn := i |} else
    let* c := digest_block loc c i in
    if 1 - t >? 0 then plain c else Ok c
  else plain c.

(** SYSTEM.MOVE of n bytes between arrays: undefined outside of them. *)
Definition move (src : list Z) (s : Z) (dst : list Z) (d n : Z) : res (list Z) :=
  if (0 <=? n) && (0 <=? s) && (s + n <=? zlen src) && (0 <=? d) && (d + n <=? zlen dst) then
    Ok (firstn (Z.to_nat d) dst ++ firstn (Z.to_nat n) (skipn (Z.to_nat s) src) ++ skipn (Z.to_nat (d + n)) dst)
  else UB.
(** Lines 233-238: the WHILE loop. *)
Fixpoint blocks (fuel : nat) (loc : list Z) (c : context) (b : list Z) (beg len : Z) : res (context * Z * Z) :=
  match fuel with
  | O => Fuel
  | S f =>
      if len >=? 64 then
        let* _ := getA b beg in
        let* i := move b beg (inn c) 0 64 in
        let* c := digest_block loc c i in
        blocks f loc c b (beg + 64) (len - 64)
      else Ok (c, beg, len)
  end.
Definition rest (loc : list Z) (c : context) (b : list Z) (beg len : Z) : res context :=
  let* (c, beg, len) := blocks (S (Z.to_nat len)) loc c b beg len in
  if len >? 0 then
    let* _ := getA b beg in
    let* i := move b beg (inn c) 0 len in
    Ok {| buf := buf c; bits := bits c; inn := i |}
  else Ok c.
(** ethMD5.Mod 214-242 [WriteBytes]; 8*len is __ASHL of 64 bits, so that the sum is narrowed when it is stored. *)
Definition WriteBytes (loc : list Z) (c : context) (b : list Z) (len : Z) : res context :=
  let t := bits c in
  let c := {| buf := buf c; bits := wrap_s 32 (t + len * 8); inn := inn c |} in
  let t := (t / 8) mod 64 in
  if t >? 0 then
    let t := 64 - t in
    let* _ := getA b 0 in
    if len <? t then
      let* i := move b 0 (inn c) (64 - t) len in
      Ok {| buf := buf c; bits := bits c; inn := i |}
    else
      let* i := move b 0 (inn c) (64 - t) t in
      let* c := digest_block loc c i in
      rest loc c b t (len - t)
  else rest loc c b 0 len.

(** The WHILE loops of Close, lines 256-258, 262-264 and 267-269: n zeros from place p. *)
Fixpoint zeros (n : nat) (i : list Z) (p : Z) : res (list Z) :=
  match n with O => Ok i | S n => let* i := setA i p 0 in zeros n i (p + 1) end.
(** The bytes of a LONGINT in memory, lowest first (little endian). *)
Definition mem (x : Z) : list Z :=
  let u := wrap_u 32 x in [u mod 256; u / 256 mod 256; u / 65536 mod 256; u / 16777216].
(** ethMD5.Mod 245-276 [Close]: the digest. *)
Definition Close (loc : list Z) (c : context) : res (list Z) :=
  let count := (bits c / 8) mod 64 in
  let beg := count in
  let* i := setA (inn c) beg 128 in
  let beg := beg + 1 in
  let count := 64 - 1 - count in
  let* c :=
    if count <? 8 then
      let* i := zeros (Z.to_nat count) i beg in
      let* c := digest_block loc c i in
      let* i := zeros 56 (inn c) 0 in
      Ok {| buf := buf c; bits := bits c; inn := i |}
    else
      let* i := zeros (Z.to_nat (count - 8)) i beg in
      Ok {| buf := buf c; bits := bits c; inn := i |} in
  let* block := ByteReverse 14 (inn c) 0 loc 0 in
  let* block := setA block 14 (bits c) in
  let* block := setA block 15 0 in
  let* b := Transform (buf c) block in
  let* block := ByteReverse 4 (flat_map mem b) 0 block 0 in
  move (flat_map mem block) 0 (repeat 0 16) 0 16.
End Md5.

(** ethMD5.Mod 278-285 [HexDigit] and 288-296 [ToString]. *)
Definition HexDigit (i : Z) : Z := if i <? 10 then 48 + i else 97 + i - 10.
Fixpoint hex_loop (n : nat) (digest : list Z) (i : Z) (str : list Z) : res (list Z) :=
  match n with
  | O => Ok str
  | S n =>
      let* d := getA digest i in
      let* str := setA str (2 * i) (HexDigit (d / 16)) in
      let* str := setA str (2 * i + 1) (HexDigit (d mod 16)) in
      hex_loop n digest (i + 1) str
  end.
Definition ToString (digest str : list Z) : res (list Z) :=
  let* str := hex_loop 16 digest 0 str in
  setA str 32 0.
