(** Model of the conversions between integers and strings in the ooc library: src/library/ooc/oocIntConv.Mod, oocIntStr.Mod, oocConvTypes.Mod and the routines of
    oocCharClass.Mod and oocStrings.Mod they use.

    The library is built for both type models (src/tools/make/oberon.mk 249-281): [w] is the width of LONGINT and [wi] of INTEGER, 32 and 16 for -O2, 64 and 32 for -OC.
    DIV and MOD with divisor 10 are the floor functions (C01). *)
From Verif Require Import Base ArrZ CStrModel.

(** oocConvTypes.Mod 20-23. *)
Definition padding := 0. Definition valid := 1. Definition invalid := 2. Definition terminator := 3.
(** oocConvTypes.Mod 10-13. *)
Definition strAllRight := 0. Definition strOutOfRange := 1. Definition strWrongFormat := 2. Definition strEmpty := 3.
(** oocCharClass.Mod 47-51, 77-83; oocAscii: sp = 20X, ff = 0CX, lf = 0AX, cr = 0DX, ht = 09X, vt = 0BX. *)
Definition IsNumeric (c : Z) : bool := (48 <=? c) && (c <=? 57).
Definition IsWhiteSpace (c : Z) : bool := (c =? 32) || (c =? 12) || (c =? 10) || (c =? 13) || (c =? 9) || (c =? 11).

(** INC of an INTEGER variable: the sum is computed in int and stored; it wraps if INTEGER is shorter than int, and overflow is undefined if it is not. *)
Definition INC (wi i : Z) : res Z := if wi <? 32 then Ok (wrap_s wi (i + 1)) else chk wi (i + 1).

(** The three procedures held by the variables W, S and SI (oocIntConv.Mod 38-39, 237-241); NIL is the next state behind a terminator. *)
Inductive state := SI | SS | SW | SNil.
(** oocIntConv.Mod 43-48. *)
Definition WState (c : Z) : Z * state := if IsNumeric c then (valid, SW) else (terminator, SNil).
(** oocIntConv.Mod 51-56. *)
Definition SState (c : Z) : Z * state := if IsNumeric c then (valid, SW) else (invalid, SS).
(** oocIntConv.Mod 59-110. *)
Definition ScanInt (c : Z) : Z * state :=
  if IsWhiteSpace c then (padding, SI)
  else if (c =? 43) || (c =? 45) then (valid, SS)
  else if IsNumeric c then (valid, SW)
  else (invalid, SI).
(** state.p(ch, class, state): calling through NIL is undefined. *)
Definition call (s : state) (c : Z) : res (Z * state) :=
  match s with SI => Ok (ScanInt c) | SS => Ok (SState c) | SW => Ok (WState c) | SNil => UB end.

(** oocIntConv.Mod 134-148: the value with one more digit; None is RETURN strOutOfRange. *)
Definition add_digit (w : Z) (pos : bool) (int digit : Z) : res (option Z) :=
  if pos then
    let* m := chk w (max_int w - digit) in
    if int >? m / 10 then Ok None else
    let* p := chk w (int * 10) in let* n := chk w (p + digit) in Ok (Some n)
  else
    let* m := chk w (min_int w + digit) in
    if int >? m / 10 then let* p := chk w (int * 10) in let* n := chk w (p - digit) in Ok (Some n)
    else if (int <? m / 10) || ((int =? m / 10) && negb (m mod 10 =? 0)) then Ok None
    else let* p := chk w (int * 10) in let* n := chk w (p - digit) in Ok (Some n).
(** oocIntConv.Mod 126-168: the LOOP. *)
Fixpoint format_loop (fuel : nat) (w wi : Z) (a : list Z) (index : Z) (s : state) (int : Z) (pos : bool) (prev : Z) : res Z :=
  match fuel with
  | O => Fuel
  | S fuel =>
      let* ch := getA a index in
      let* (class, s) := call s ch in
      if class =? padding then let* index := INC wi index in format_loop fuel w wi a index s int pos class
      else if class =? valid then
        if ch =? 45 then let* index := INC wi index in format_loop fuel w wi a index s int false class
        else if ch =? 43 then let* index := INC wi index in format_loop fuel w wi a index s int true class
        else
          let* r := add_digit w pos int (ch - 48) in
          match r with
          | None => Ok strOutOfRange
          | Some int => let* index := INC wi index in format_loop fuel w wi a index s int pos class
          end
      else if class =? invalid then Ok (if prev =? padding then strEmpty else strWrongFormat)
      else if class =? terminator then Ok (if ch =? 0 then strAllRight else strWrongFormat)
      else let* index := INC wi index in format_loop fuel w wi a index s int pos class
  end.
(** oocStrings.Mod 59-74 [Length]. *)
Fixpoint length_loop (fuel : nat) (wi : Z) (a : list Z) (i : Z) : res Z :=
  match fuel with
  | O => Fuel
  | S fuel =>
      if i <? zlen a then
        let* c := getA a i in
        if c =? 0 then Ok i else let* i := INC wi i in length_loop fuel wi a i
      else Ok i
  end.
Definition Length (wi : Z) (a : list Z) : res Z := length_loop (S (length a)) wi a 0.
(** oocIntConv.Mod 113-169 [FormatInt]; len is computed but not used. *)
Definition FormatInt (w wi : Z) (a : list Z) : res Z := let* _ := Length wi a in format_loop (S (length a)) w wi a 0 SI 0 true padding.

(** oocIntConv.Mod 188-201: the FOR loop, [n] rounds left. *)
Fixpoint value_loop (n : nat) (w : Z) (a : list Z) (index : Z) (s : state) (int : Z) (pos : bool) : res Z :=
  match n with
  | O => Ok int
  | S n =>
      let* ch := getA a index in
      let* (class, s) := call s ch in
      let* (int, pos) :=
        if class =? valid then
          if ch =? 45 then Ok (int, false)
          else if ch =? 43 then Ok (int, true)
          else let* p := chk w (int * 10) in let* int := chk w (if pos then p + (ch - 48) else p - (ch - 48)) in Ok (int, pos)
        else Ok (int, pos) in
      value_loop n w a (index + 1) s int pos
  end.
(** oocIntConv.Mod 172-205 [ValueInt]. *)
Definition ValueInt (w wi : Z) (a : list Z) : res Z :=
  let* f := FormatInt w wi a in
  if f =? strAllRight then
    let* len := Length wi a in
    value_loop (Z.to_nat len) w a 0 SI 0 true
  else Ok 0.
(** oocIntConv.Mod 208-224 [LengthInt]. *)
Fixpoint count_loop (fuel : nat) (wi int cnt : Z) : res Z :=
  match fuel with
  | O => Fuel
  | S fuel => if int >? 0 then let* cnt := INC wi cnt in count_loop fuel wi (int / 10) cnt else Ok cnt
  end.
Definition LengthInt (w wi int : Z) : res Z :=
  let* (int, cnt) :=
    if int =? min_int w then let* m := chk w (int + 1) in let* n := chk w (- m) in Ok (n, 1)
    else if int <=? 0 then let* n := chk w (- int) in Ok (n, 1)
    else Ok (int, 0) in
  count_loop 66 wi int cnt.

(** oocIntStr.Mod 43-52 [StrToInt]: the new value of int, and res. *)
Definition StrToInt (w wi : Z) (a : list Z) (int : Z) : res (Z * Z) :=
  let* r := FormatInt w wi a in
  if r =? strAllRight then let* v := ValueInt w wi a in Ok (v, r) else Ok (int, r).
(** oocIntStr.Mod 55-64 [Reverse]. *)
Fixpoint Reverse (fuel : nat) (wi : Z) (b : list Z) (start end_ : Z) : res (list Z) :=
  match fuel with
  | O => Fuel
  | S fuel =>
      if start <? end_ then
        let* h := getA b start in
        let* x := getA b end_ in
        let* b := setA b start x in
        let* b := setA b end_ h in
        let* start := INC wi start in
        Reverse fuel wi b start (end_ - 1)
      else Ok b
  end.
(** oocIntStr.Mod 87-91: the REPEAT loop. *)
Fixpoint digit_loop (fuel : nat) (wi : Z) (b : list Z) (int e : Z) : res (list Z * Z) :=
  match fuel with
  | O => Fuel
  | S fuel =>
      let* b := setA b e (int mod 10 + 48) in
      let int := int / 10 in
      let* e := INC wi e in
      if int =? 0 then Ok (b, e) else digit_loop fuel wi b int e
  end.
(** oocIntStr.Mod 78: the string -2147483648 with its terminator. *)
Definition min_text : list Z := [45; 50; 49; 52; 55; 52; 56; 51; 54; 52; 56; 0].
(** oocIntStr.Mod 67-97 [IntToStr]; [b] is the local array of maxLength+1 characters, not initialised. *)
Definition IntToStr (w wi : Z) (b : list Z) (int : Z) (str : list Z) : res (list Z) :=
  let* b :=
    if int =? min_int w then Ok min_text
    else
      let* (b, int, s) := if int <? 0 then let* b := setA b 0 45 in let* n := chk w (- int) in Ok (b, n, 1) else Ok (b, int, 0) in
      let* (b, e) := digit_loop 65 wi b int s in
      let* b := setA b e 0 in
      Reverse 65 wi b s (e - 1) in
  COPY b str.
