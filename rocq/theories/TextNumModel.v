(** Texts: writing numbers and the scanner. *)
From Verif Require Import Base ArithModel DateModel.

(** A writer is the list of the characters written so far (C32 is about buffers and pieces). *)
(** Texts.Mod 558-560: REPEAT a[i] := CHR(x0 MOD 10 + 30H); x0 := x0 DIV 10; INC(i) UNTIL x0 = 0. *)
Fixpoint rep_digits (fuel : nat) (x : Z) (a : list Z) (i : Z) : res (list Z * Z) :=
  match fuel with
  | O => Fuel
  | S f =>
      let* d := MOD_inline 64 x 10 in
      let* c := CHR_inline (48 + d) in
      let* a := setA a i c in
      let* x := DIV_inline 64 x 10 in
      if x =? 0 then Ok (a, i + 1) else rep_digits f x a (i + 1)
  end.
(** Texts.Mod 561: WHILE n > i DO Write(W, " "); DEC(n) END, written as a number of blanks. *)
Definition wblanks (n i : Z) : list Z := repeat 32 (Z.to_nat (n - i)).
(** Texts.Mod 563, 575: REPEAT DEC(i); Write(W, a[i]) UNTIL i = 0. *)
Fixpoint write_down (fuel : nat) (a : list Z) (i : Z) (w : list Z) : res (list Z) :=
  match fuel with
  | O => Fuel
  | S f => let i := i - 1 in let* c := getA a i in let w := w ++ [c] in if i =? 0 then Ok w else write_down f a i w
  end.
(** Texts.Mod 547-564 [WriteInt]; [a]: the local array of 24 characters. *)
Definition min64_text : list Z := [32; 45; 57; 50; 50; 51; 51; 55; 50; 48; 51; 54; 56; 53; 52; 55; 55; 53; 56; 48; 56].
Definition WriteInt (a : list Z) (x n : Z) (w : list Z) : res (list Z) :=
  if x =? - 2 ^ 63 then Ok (w ++ min64_text)
  else
    let* n := (if x <? 0 then chk 64 (n - 1) else Ok n) in
    let* x0 := (if x <? 0 then chk 64 (- x) else Ok x) in
    let* (a, i) := rep_digits 20 x0 a 0 in
    let w := w ++ wblanks n i in
    let w := if x <? 0 then w ++ [45] else w in
    write_down 25 a i w.
(** Texts.Mod 569-574: eight hexadecimal digits, lowest first. *)
Fixpoint hex_digits (k : nat) (x : Z) (a : list Z) (i : Z) : res (list Z) :=
  match k with
  | O => Ok a
  | S k =>
      let y := MASK x (-16) in
      let* c := CHR_inline (if y <? 10 then y + 48 else y + 55) in
      let* a := setA a i c in
      let* x := ASHR x 4 in
      hex_digits k x a (i + 1)
  end.
(** Texts.Mod 566-577 [WriteHex]; [a]: the local array of 20 characters. *)
Definition WriteHex (a : list Z) (x : Z) (w : list Z) : res (list Z) :=
  let w := w ++ [32] in
  let* a := hex_digits 8 x a 0 in
  write_down 25 a 8 w.

(** What a scan delivers.  [SReal]: class 4 or 5, numbers with a point, which are not modelled further. *)
Inductive sym := SName (s : list Z) | SString (s : list Z) | SInt (i : Z) | SChar (c : Z) | SInval | SReal.
(** Texts.Mod 338-354 [Read] as seen by the scanner: the next character, 0X for ever after the end. *)
Definition Read (l : list Z) : Z * list Z := match l with [] => (0, []) | c :: r => (c, r) end.
(** Texts.Mod 414-419: blanks, tabs and line ends are skipped (the line count is left out). *)
Fixpoint skip (ch : Z) (l : list Z) : Z * list Z :=
  if (ch =? 13) || (ch =? 32) || (ch =? 9) then match l with [] => (0, []) | c :: r => skip c r end else (ch, l).
Definition isletter (ch : Z) : bool := (65 <=? CAP ch) && (CAP ch <=? 90).
(** Texts.Mod 422-426: the end of a name. *)
Definition name_ends (ch i : Z) : bool :=
  (CAP ch >? 90) && negb (ch =? 95) || (65 >? CAP ch) && (ch >? 57) || (48 >? ch) && negb (ch =? 46) && negb (ch =? 47) || (i =? 63).
(** Texts.Mod 421-426: REPEAT S.s[i] := ch; INC(i); Read(S, ch) UNTIL ....  The recursion is on the number of characters still fitting. *)
Fixpoint name_loop (room : nat) (ch : Z) (l s : list Z) : list Z * Z * list Z :=
  let s := s ++ [ch] in
  let '(ch, l) := Read l in
  match room with
  | O => (s, ch, l)
  | S room => if name_ends ch (Z.of_nat (length s)) then (s, ch, l) else name_loop room ch l s
  end.
(** Texts.Mod 430-432. *)
Fixpoint str_loop (room : nat) (ch : Z) (l s : list Z) : list Z * Z * list Z :=
  match room with
  | O => (s, ch, l)
  | S room => if negb (ch =? 34) && (ch >=? 32) then let '(ch', l) := Read l in str_loop room ch' l (s ++ [ch]) else (s, ch, l)
  end.
(** Texts.Mod 438-446: the digits, converted letters included; d has 32 elements. *)
Fixpoint num_loop (ch : Z) (l : list Z) (hex : bool) (d : list Z) : res (list Z * bool * Z * list Z) :=
  if Z.of_nat (length d) >=? 32 then Trap (-2)
  else
    let d := d ++ [ch] in
    match l with
    | [] => Ok (d, hex, 0, [])
    | ch :: l =>
        if ch <? 48 then Ok (d, hex, ch, l)
        else if 57 <? ch then
          if (65 <=? ch) && (ch <=? 70) then num_loop (ch - 7) l true d
          else if (97 <=? ch) && (ch <=? 102) then num_loop (ch - 39) l true d
          else Ok (d, hex, ch, l)
        else num_loop ch l hex d
    end.
(** Texts.Mod 452: WHILE j < i DO k := k*10H + (ORD(d[j]) - 30H); INC(j) END, bootstrap/unix-88/Texts.c 836: a 64 bit shift and sum stored in an INT32. *)
Fixpoint hex_val (d : list Z) (k : Z) : res Z :=
  match d with [] => Ok k | c :: d => let* s := ASHL k 4 in let* s := chk 64 (s + (c - 48)) in hex_val d (wrap_s 32 s) end.
(** Texts.Mod 482: REPEAT k := k*10 + (ORD(d[j]) - 30H); INC(j) UNTIL j = i, in INT32. *)
Fixpoint dec_val (d : list Z) (k : Z) : res Z :=
  match d with [] => Ok k | c :: d => let* p := chk 32 (k * 10) in let* k := chk 32 (p + (c - 48)) in dec_val d k end.
Definition negate (neg : bool) (k : Z) : res Z := if neg then chk 32 (- k) else Ok k.
(** Texts.Mod 394-493 [Scan]: the symbol, the new nextCh and what is left to read. *)
Definition Scan (nextCh : Z) (l : list Z) : res (sym * Z * list Z) :=
  let '(ch, l) := skip nextCh l in
  if isletter ch || (ch =? 47) || (ch =? 46) then
    let '(s, ch, l) := name_loop 62 ch l [] in Ok (SName s, ch, l)
  else if ch =? 34 then
    let '(ch, l) := Read l in
    let '(s, ch, l) := str_loop 63 ch l [] in
    let '(ch, l) := Read l in Ok (SString s, ch, l)
  else
    let neg := ch =? 45 in
    let '(ch, l) := if neg then Read l else (ch, l) in
    if (48 <=? ch) && (ch <=? 57) then
      let* r := num_loop ch l false [] in
      let '(d, hex, ch, l) := r in
      if ch =? 72 then
        let '(ch, l) := Read l in
        let d := if Z.of_nat (length d) >? 8 then skipn (length d - 8) d else d in
        match d with
        | [] => UB
        | c :: d' =>
            let k := c - 48 in
            let k := if (Z.of_nat (length d') =? 7) && (k >=? 8) then k - 16 else k in
            let* k := hex_val d' k in
            let* i := negate neg k in Ok (SInt i, ch, l)
        end
      else if ch =? 46 then Ok (SReal, ch, l)
      else
        let* k := dec_val d 0 in
        let* i := negate neg k in Ok (if hex then SInval else SInt i, ch, l)
    else if neg then Ok (SChar 45, ch, l)
    else let '(ch', l) := Read l in Ok (SChar ch, ch', l).
