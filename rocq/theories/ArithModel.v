(** Model of the arithmetic, shift, set and range-check primitives of the generated C:
    src/runtime/SYSTEM.h and src/runtime/SYSTEM.c. *)
From Verif Require Import Base.

(** C's [/] on [w]-bit signed operands: truncating; undefined for a zero divisor or an
    unrepresentable quotient. *)
Definition c_div (w x y : Z) : res Z := if y =? 0 then UB else chk w (Z.quot x y).

(** C's [%] on [w]-bit signed operands; undefined exactly when [/] is. *)
Definition c_rem (w x y : Z) : res Z :=
  if y =? 0 then UB else if in_intb w (Z.quot x y) then Ok (Z.rem x y) else UB.

(** SYSTEM.c 27-36 [SYSTEM_DIV].  [arith] is the meaning given to each signed 64-bit + - and unary -:
    [chk 64] for the C standard, [fun v => Ok (wrap_s 64 v)] for a compiler that wraps. *)
Definition SYSTEM_DIV_with (arith : Z -> res Z) (x y : Z) : res Z :=
  if x =? 0 then Ok 0 else
  if x >=? 0 then
    if y >=? 0 then c_div 64 x y
    else
      let* a := arith (x - y) in
      let* b := arith (a - 1) in
      let* ny := arith (- y) in
      let* q := c_div 64 b ny in
      arith (- q)
  else
    if y >=? 0 then
      let* a := arith (y - x) in
      let* b := arith (a - 1) in
      let* q := c_div 64 b y in
      arith (- q)
    else
      let* nx := arith (- x) in
      let* ny := arith (- y) in
      c_div 64 nx ny.
Definition SYSTEM_DIV : Z -> Z -> res Z := SYSTEM_DIV_with (chk 64).

(** SYSTEM.c 38-47 [SYSTEM_MOD]. *)
Definition SYSTEM_MOD_with (arith : Z -> res Z) (x y : Z) : res Z :=
  if x =? 0 then Ok 0 else
  if x >=? 0 then
    if y >=? 0 then c_rem 64 x y
    else
      let* a := arith (y + 1) in
      let* b := arith (x - 1) in
      let* ny := arith (- y) in
      let* r := c_rem 64 b ny in
      arith (a + r)
  else
    if y >=? 0 then
      let* a := arith (y - 1) in
      let* nx := arith (- x) in
      let* b := arith (nx - 1) in
      let* r := c_rem 64 b y in
      arith (a - r)
    else
      let* nx := arith (- x) in
      let* ny := arith (- y) in
      let* r := c_rem 64 nx ny in
      arith (- r).
Definition SYSTEM_MOD : Z -> Z -> res Z := SYSTEM_MOD_with (chk 64).

(** SYSTEM.h 192-199 [__DIV], [__MOD]: an inline fast path when both operands are positive, otherwise the
    routine ([__DIVF], [__MODF]).  OPV.Mod 570-579 emits the routine directly when an operand has
    side effects.  [w] is the width of the promoted operand type. *)
Definition DIV_inline (w x y : Z) : res Z :=
  if (x >? 0) && (y >? 0) then c_div w x y else SYSTEM_DIV x y.
Definition MOD_inline (w x y : Z) : res Z :=
  if (x >? 0) && (y >? 0) then c_rem w x y else SYSTEM_MOD x y.

(** SYSTEM.h 206 [__ABS(x)] = [((x)<0)?-(x):(x)], [w] the promoted width. *)
Definition ABS_inline (w x : Z) : res Z := if x <? 0 then chk w (- x) else Ok x.

(** SYSTEM.h 208 [static inline INT32 SYSTEM_ABS64(INT64 i)]: declared to return INT32, so the result is
    converted to 32 bits. *)
Definition SYSTEM_ABS64 (i : Z) : res Z :=
  let* a := (if i >=? 0 then Ok i else chk 64 (- i)) in Ok (wrap_s 32 a).

(** SYSTEM.h 209 [static inline INT64 SYSTEM_ABS32(INT32 i)]: the negation is done in INT32. *)
Definition SYSTEM_ABS32 (i : Z) : res Z :=
  if i >=? 0 then Ok i else chk 32 (- i).

(** SYSTEM.h 210 [__ABSF(x)]: selects by the size of the operand ([size] in bytes). *)
Definition ABSF (size x : Z) : res Z :=
  if size <=? 4 then SYSTEM_ABS32 x else SYSTEM_ABS64 x.

(** SYSTEM.h 183-187 [__ASHL], [__ASHR], [__ASH]: shifts of an INT64 (left shift of a negative value as gcc
    and clang define it).  A count outside 0..63 is undefined. *)
Definition ASHL (x n : Z) : res Z :=
  if (0 <=? n) && (n <? 64) then Ok (wrap_s 64 (Z.shiftl x n)) else UB.
Definition ASHR (x n : Z) : res Z :=
  if (0 <=? n) && (n <? 64) then Ok (Z.shiftr x n) else UB.
Definition ASH (x n : Z) : res Z := if n >=? 0 then ASHL x n else ASHR x (- n).

(** Width in which C evaluates a shift of a [s]-bit unsigned operand: integer promotion makes
    8- and 16-bit operands [int]. *)
Definition promoted (s : Z) : Z := if s <? 32 then 32 else s.

(** SYSTEM.h 175-177 [__LSHL], [__LSHR], [__LSH] on [s]-bit operands. *)
Definition LSHL (x n s : Z) : res Z :=
  if (0 <=? n) && (n <? promoted s) then Ok (wrap_s s (Z.shiftl (wrap_u s x) n)) else UB.
Definition LSHR (x n s : Z) : res Z :=
  if (0 <=? n) && (n <? promoted s) then Ok (wrap_s s (Z.shiftr (wrap_u s x) n)) else UB.
Definition LSH (x n s : Z) : res Z := if n >=? 0 then LSHL x n s else LSHR x (- n) s.

(** SYSTEM.h 179-181 [__ROTL], [__ROTR], [__ROT] on [s]-bit operands. *)
Definition ROTL (x n s : Z) : res Z :=
  if (0 <=? n) && (n <? promoted s) && (0 <=? s - n) && (s - n <? promoted s)
  then Ok (wrap_s s (Z.lor (Z.shiftl (wrap_u s x) n) (Z.shiftr (wrap_u s x) (s - n)))) else UB.
Definition ROTR (x n s : Z) : res Z :=
  if (0 <=? n) && (n <? promoted s) && (0 <=? s - n) && (s - n <? promoted s)
  then Ok (wrap_s s (Z.lor (Z.shiftr (wrap_u s x) n) (Z.shiftl (wrap_u s x) (s - n)))) else UB.
Definition ROT (x n s : Z) : res Z := if n >=? 0 then ROTL x n s else ROTR x (- n) s.

(** Sets are unsigned [size]-bit words, [size] = 32 or 64 (OPC emits SET as UINT32/UINT64).
    SYSTEM.h 218 [__IN(x, s, size)]: the element is truncated to [unsigned int] for the range test but
    used untruncated as the shift count. *)
Definition SET_IN (x s size : Z) : res bool :=
  if wrap_u 32 x <? size then
    if (0 <=? x) && (x <? size) then Ok (Z.testbit (Z.land (Z.shiftr s x) 1) 0) else UB
  else Ok false.

(** SYSTEM.h 220 [__SETOF(x, size)] = [(UINT##size)1<<(x)]. *)
Definition SETOF (x size : Z) : res Z :=
  if (0 <=? x) && (x <? size) then Ok (wrap_u size (Z.shiftl 1 x)) else UB.

(** SYSTEM.h 221 [__SETRNG(l, h, size)] = [(~(UINT##size)0<<(l))&~(UINT##size)0>>(size-1-(h))]. *)
Definition all_ones (size : Z) : Z := 2 ^ size - 1.
Definition SETRNG (l h size : Z) : res Z :=
  if (0 <=? l) && (l <? size) && (0 <=? size - 1 - h) && (size - 1 - h <? size)
  then Ok (Z.land (wrap_u size (Z.shiftl (all_ones size) l)) (Z.shiftr (all_ones size) (size - 1 - h)))
  else UB.

(** Set operators as emitted by OPV.Mod expr: [+] is [|] (624), [-] is [& ~] (626), [*] is [&] (613), [/] is [^] (616),
    unary [-] is [~] (494).  INCL/EXCL (OPV.Mod 835-838, OPC.SetInclude) are [|= __SETOF] and
    [&= ~__SETOF]. *)
Definition set_compl (size a : Z) : Z := wrap_u size (Z.lnot a).
Definition set_plus (a b : Z) : Z := Z.lor a b.
Definition set_minus (size a b : Z) : Z := Z.land a (set_compl size b).
Definition set_times (a b : Z) : Z := Z.land a b.
Definition set_slash (a b : Z) : Z := Z.lxor a b.
Definition INCL (size s x : Z) : res Z := let* e := SETOF x size in Ok (Z.lor s e).
Definition EXCL (size s x : Z) : res Z := let* e := SETOF x size in Ok (Z.land s (set_compl size e)).

(** SYSTEM.h 119 [__XF(UINT64 i, UINT64 ub)]: both converted to unsigned 64 bits. Emitted (OPV.Mod 298-307)
    when the index expression contains a call. *)
Definition XF (i ub : Z) : res Z :=
  if wrap_u 64 i >=? wrap_u 64 ub then Trap (-2) else Ok (wrap_s 64 (wrap_u 64 i)).
(** SYSTEM.h 120 [__X(i, ub)] = [(((i)<(ub))?i:(__HALT(-2),0))]: the comparison is signed because both the
    index and the length are signed C integers (OPV.Mod 305, OPC.Mod 1216-1229). *)
Definition X_inline (i ub : Z) : res Z := if i <? ub then Ok i else Trap (-2).

(** SYSTEM.h 125 [__RF], 126 [__R]: as above with HALT(-8). *)
Definition RF (i ub : Z) : res Z :=
  if wrap_u 64 i >=? wrap_u 64 ub then Trap (-8) else Ok (wrap_s 64 (wrap_u 64 i)).
Definition R_inline (i ub : Z) : res Z := if i <? ub then Ok i else Trap (-8).

(** SYSTEM.h 127 [__SHORT(x, ub)] = [((int)((UINT64)(x)+(ub)<(ub)+(ub)?(x):(__HALT(-8),0)))].
    OPV.Mod 244-256 passes ub = MAX(destination)+1. *)
Definition SHORT_inline (x ub : Z) : res Z :=
  if wrap_u 64 (wrap_u 64 x + ub) <? ub + ub then Ok (wrap_s 32 x) else Trap (-8).
(** SYSTEM.h 128 [__SHORTF(x, ub)] = [((int)(__RF((x)+(ub),(ub)+(ub))-(ub)))]; the sum is computed in the
    signed type of [x] and [ub], [w] bits wide. *)
Definition SHORTF (w x ub : Z) : res Z :=
  let* a := chk w (x + ub) in
  let* r := RF a (ub + ub) in
  Ok (wrap_s 32 (r - ub)).

(** SYSTEM.h 129-130 [__CHR(x)] = [((CHAR)__R(x, 256))], [__CHRF(x)] = [((CHAR)__RF(x, 256))]. *)
Definition CHR_inline (x : Z) : res Z := let* r := R_inline x 256 in Ok (wrap_u 8 r).
Definition CHRF (x : Z) : res Z := let* r := RF x 256 in Ok (wrap_u 8 r).

(** SYSTEM.h 215 [__CAP(ch)] = [((CHAR)((ch)&0x5f))]; 216 [__ODD(x)] = [((x)&1)]. *)
Definition CAP (ch : Z) : Z := wrap_u 8 (Z.land ch 95).
Definition ODD (x : Z) : bool := negb (Z.land x 1 =? 0).
