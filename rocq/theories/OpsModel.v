(** The scanner of the compiler. *)
From Verif Require Import Base ArithModel.

(** OPM.Mod 388-397 [Get]: the next character of the source text, 0X after its end; characters below 09X are replaced by blanks.  The position is left
    out.  A state of the scanner is the current character and the text that follows it. *)
Definition OGet (l : list Z) : Z * list Z := match l with [] => (0, []) | c :: r => (if c <? 9 then 32 else c, r) end.
Definition Eot : Z := 0.

(** What a call of Get delivers.  [TSym]: a symbol number of OPS.Mod 29-41; [TChar v], [TInt v]: number with numtyp char or integer; [TReal]: a number with
    a point, whose value is not modelled; [TString s]: string. *)
Inductive token := TEof | TSym (s : Z) | TIdent (name : list Z) | TString (s : list Z) | TChar (v : Z) | TInt (v : Z) | TReal.
(** The result: token, errors reported, new state. *)
Definition result : Type := token * list Z * Z * list Z.

(** OPS.Mod 66-80 [Str].  str is the list of its characters, without the 0X. *)
Fixpoint str_loop (och : Z) (l : list Z) (s : list Z) : list Z * list Z * list Z :=
  match l with
  | [] => (s, [3], [])
  | c :: r =>
      let ch := if c <? 9 then 32 else c in
      if ch =? och then (s, [], r)
      else if ch <? 32 then (s, [3], r)
      else if Z.of_nat (length s) =? 255 then (s, [241], r)
      else str_loop och r (s ++ [ch])
  end.
Definition Str (och : Z) (l : list Z) : result :=
  let '(s, e, l) := str_loop och l [] in
  let '(ch, l) := OGet l in
  match s with [c] => (TChar c, e, ch, l) | _ => (TString s, e, ch, l) end.

(** OPS.Mod 82-90 [Identifier]: the name, errors, and the new state. *)
Definition id_ends (ch : Z) : bool := (ch <? 48) || (57 <? ch) && (CAP ch <? 65) || (90 <? CAP ch).
Fixpoint id_loop (l : list Z) (ch : Z) (name : list Z) : list Z * list Z * Z * list Z :=
  let name := name ++ [ch] in
  if Z.of_nat (length name) =? 256 then let '(ch, l) := OGet l in (removelast name, [240], ch, l)
  else
    match l with
    | [] => (name, [], 0, [])
    | c :: r => let ch := if c <? 9 then 32 else c in if id_ends ch then (name, [], ch, r) else id_loop r ch name
    end.
Definition Identifier (ch : Z) (l : list Z) : list Z * list Z * Z * list Z := id_loop l ch [].

(** OPS.Mod 107-114 [Ord] and the errors it reports. *)
Definition Ord (ch : Z) (hex : bool) : Z * list Z := if ch <=? 57 then (ch - 48, []) else if hex then (ch - 65 + 10, []) else (0, [2]).
(** OPS.Mod 118-133: the mantissa.  i and m are INTEGERs and wrap; dig is the list of the digits stored, its length is n. *)
Fixpoint mant (l : list Z) (ch i m d : Z) (dig errs : list Z) : Z * Z * Z * list Z * list Z * Z * list Z :=
  if ((48 <=? ch) && (ch <=? 57)) || (d =? 0) && (65 <=? ch) && (ch <=? 70) then
    let '(dig, m) := if (m >? 0) || negb (ch =? 48) then (if Z.of_nat (length dig) <? 24 then dig ++ [ch] else dig, wrap_s 16 (m + 1)) else (dig, m) in
    let i := wrap_s 16 (i + 1) in
    match l with
    | [] => (i, m, d, dig, errs, 0, [])
    | c :: r => mant r (if c <? 9 then 32 else c) i m d dig errs
    end
  else if ch =? 46 then
    let err := if d =? 0 then [] else [2] in
    let d' := if d =? 0 then i else d in
    match l with
    | [] => (i, m, d', dig, errs ++ err, 0, [])
    | c :: r => let c := if c <? 9 then 32 else c in if c =? 46 then (i, m, d, dig, errs, 127, r) else mant r c i m d' dig (errs ++ err)
    end
  else (i, m, d, dig, errs, ch, l).
(** OPS.Mod 139, 146: WHILE i < n DO intval := intval*10H + Ord(dig[i], TRUE); INC(i) END. *)
Fixpoint hexval (dig : list Z) (v : Z) : res Z :=
  match dig with [] => Ok v | c :: dig => let* p := chk 64 (v * 16) in let* v := chk 64 (p + fst (Ord c true)) in hexval dig v end.
(** OPS.Mod 150-154. *)
Fixpoint decval (dig : list Z) (v : Z) (errs : list Z) : res (Z * list Z) :=
  match dig with
  | [] => Ok (v, errs)
  | c :: dig =>
      let '(d, e) := Ord c false in
      let errs := errs ++ e in
      if v <=? (2 ^ 63 - 1 - d) / 10 then let* p := chk 64 (v * 10) in let* v := chk 64 (p + d) in decval dig v errs else decval dig v (errs ++ [203])
  end.
(** OPS.Mod 92-188 [Number].  The value of a number with a point and its exponent are not modelled. *)
Definition Number (ch : Z) (l : list Z) : res result :=
  let '(i, m, d, dig, errs, ch, l) := mant l ch 0 0 0 [] [] in
  let n := Z.of_nat (length dig) in
  if d =? 0 then
    if n =? m then
      if ch =? 88 then
        let '(ch, l) := OGet l in
        if n <=? 2 then let* v := hexval dig 0 in Ok (TChar v, errs, ch, l) else Ok (TChar 0, errs ++ [203], ch, l)
      else if ch =? 72 then
        let '(ch, l) := OGet l in
        if n <=? 16 then
          let v := if (n =? 16) && (match dig with c :: _ => c >? 55 | [] => false end) then -1 else 0 in
          let* v := hexval dig v in Ok (TInt v, errs, ch, l)
        else Ok (TInt 0, errs ++ [203], ch, l)
      else let* (v, errs) := decval dig 0 errs in Ok (TInt v, errs, ch, l)
    else Ok (TInt 0, errs ++ [203], ch, l)
  else Ok (TReal, errs, ch, l).

(** OPS.Mod 193-207 [Comment], from the point after its first Get: [ch] is the current character at the head of the inner loop. *)
Fixpoint comment (fuel : nat) (ch : Z) (l errs : list Z) : res (Z * list Z * list Z) :=
  match fuel with
  | O => Fuel
  | S f =>
      if ch =? 40 then
        let '(ch, l) := OGet l in
        if ch =? 42 then
          let '(ch, l) := OGet l in
          let* r := comment f ch l errs in
          let '(ch, l, errs) := r in comment f ch l errs
        else comment f ch l errs
      else if ch =? 42 then
        let '(ch, l) := OGet l in
        if ch =? 41 then let '(ch, l) := OGet l in Ok (ch, l, errs)
        else if ch =? Eot then Ok (ch, l, errs ++ [5])
        else comment f ch l errs
      else if ch =? Eot then Ok (ch, l, errs ++ [5])
      else let '(ch, l) := OGet l in comment f ch l errs
  end.
Definition Comment (l errs : list Z) : res (Z * list Z * list Z) := let '(ch, l) := OGet l in comment (length l + 3) ch l errs.

(** OPS.Mod 211-215: control characters and blanks are skipped. *)
Fixpoint skipws (l : list Z) (ch : Z) : Z * list Z :=
  if (ch <=? 32) && negb (ch =? Eot) then match l with [] => (0, []) | c :: r => skipws r (if c <? 9 then 32 else c) end else (ch, l).
(** OPS.Mod 240-300: the comparison of a name with the reserved words that start with its first letter. *)
Definition str (s : list Z) (t : list Z) : bool := if list_eq_dec Z.eq_dec s t then true else false.
Definition classify (ch : Z) (name : list Z) : token :=
  let id := TIdent name in
  if ch =? 65 then if str name [65; 82; 82; 65; 89] then TSym 54 else id
  else if ch =? 66 then if str name [66; 69; 71; 73; 78] then TSym 57 else if str name [66; 89] then TSym 29 else id
  else if ch =? 67 then if str name [67; 65; 83; 69] then TSym 46 else if str name [67; 79; 78; 83; 84] then TSym 58 else id
  else if ch =? 68 then if str name [68; 79] then TSym 27 else if str name [68; 73; 86] then TSym 3 else id
  else if ch =? 69 then if str name [69; 78; 68] then TSym 41 else if str name [69; 76; 83; 69] then TSym 42 else if str name [69; 76; 83; 73; 70] then TSym 43 else if str name [69; 88; 73; 84] then TSym 52 else id
  else if ch =? 70 then if str name [70; 79; 82] then TSym 49 else id
  else if ch =? 73 then if str name [73; 70] then TSym 45 else if str name [73; 78] then TSym 15 else if str name [73; 83] then TSym 16 else if str name [73; 77; 80; 79; 82; 84] then TSym 62 else id
  else if ch =? 76 then if str name [76; 79; 79; 80] then TSym 50 else id
  else if ch =? 77 then if str name [77; 79; 68] then TSym 4 else if str name [77; 79; 68; 85; 76; 69] then TSym 63 else id
  else if ch =? 78 then if str name [78; 73; 76] then TSym 36 else id
  else if ch =? 79 then if str name [79; 82] then TSym 8 else if str name [79; 70] then TSym 25 else id
  else if ch =? 80 then if str name [80; 82; 79; 67; 69; 68; 85; 82; 69] then TSym 61 else if str name [80; 79; 73; 78; 84; 69; 82] then TSym 56 else id
  else if ch =? 82 then if str name [82; 69; 67; 79; 82; 68] then TSym 55 else if str name [82; 69; 80; 69; 65; 84] then TSym 48 else if str name [82; 69; 84; 85; 82; 78] then TSym 53 else id
  else if ch =? 84 then if str name [84; 72; 69; 78] then TSym 26 else if str name [84; 79] then TSym 28 else if str name [84; 89; 80; 69] then TSym 59 else id
  else if ch =? 85 then if str name [85; 78; 84; 73; 76] then TSym 44 else id
  else if ch =? 86 then if str name [86; 65; 82] then TSym 60 else id
  else if ch =? 87 then if str name [87; 72; 73; 76; 69] then TSym 47 else if str name [87; 73; 84; 72] then TSym 51 else id
  else id.
(** The one-character symbols of OPS.Mod 217-309. *)
Definition single (ch : Z) : Z :=
  if ch =? 35 then 10 else if ch =? 38 then 5 else if ch =? 41 then 22 else if ch =? 42 then 1 else if ch =? 43 then 6 else if ch =? 44 then 19 else if ch =? 45 then 7
  else if ch =? 47 then 2 else if ch =? 59 then 39 else if ch =? 61 then 9 else if ch =? 91 then 31 else if ch =? 93 then 23 else if ch =? 94 then 17 else if ch =? 123 then 32
  else if ch =? 124 then 40 else if ch =? 125 then 24 else if ch =? 126 then 33 else if ch =? 127 then 21 else 0.
(** Two characters or one: the second character, the symbol with it, the symbol without it. *)
Definition pair_sym (l : list Z) (c two one : Z) : result := let '(ch, l) := OGet l in if ch =? c then let '(ch, l) := OGet l in (TSym two, [], ch, l) else (TSym one, [], ch, l).
Definition letter (ch : Z) : bool := ((65 <=? ch) && (ch <=? 90)) || ((97 <=? ch) && (ch <=? 122)).
(** OPS.Mod 190-312 [Get]. *)
Fixpoint Get (fuel : nat) (ch : Z) (l errs : list Z) : res result :=
  match fuel with
  | O => Fuel
  | S f =>
      let '(ch, l) := skipws l ch in
      if ch =? Eot then Ok (TEof, errs, ch, l)
      else if (ch =? 34) || (ch =? 39) then let '(t, e, c, r) := Str ch l in Ok (t, errs ++ e, c, r)
      else if ch =? 40 then
        let '(ch, l) := OGet l in
        if ch =? 42 then let* r := Comment l errs in let '(ch, l, errs) := r in Get f ch l errs
        else Ok (TSym 30, errs, ch, l)
      else if ch =? 46 then let '(t, e, c, r) := pair_sym l 46 21 18 in Ok (t, errs, c, r)
      else if ch =? 58 then let '(t, e, c, r) := pair_sym l 61 34 20 in Ok (t, errs, c, r)
      else if ch =? 60 then let '(t, e, c, r) := pair_sym l 61 12 11 in Ok (t, errs, c, r)
      else if ch =? 62 then let '(t, e, c, r) := pair_sym l 61 14 13 in Ok (t, errs, c, r)
      else if (48 <=? ch) && (ch <=? 57) then let* r := Number ch l in let '(t, e, c, r) := r in Ok (t, errs ++ e, c, r)
      else if letter ch then let '(name, e, c, r) := Identifier ch l in Ok (classify ch name, errs ++ e, c, r)
      else let '(c, r) := OGet l in Ok (TSym (single ch), errs, c, r)
  end.
