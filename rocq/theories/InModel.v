(** Standard input: src/runtime/In.Mod 5-143.  [rest]: the bytes the operating system has not yet delivered; ReadBuf of one byte takes
    the first of them, or returns 0 bytes at the end.  Read errors are not modelled.  Out.Flush (line 32) has no effect on these variables. *)
From Verif Require Import Base ArrZ ArithModel.

Inductive rstate := pending | ready | ateof.
Record ist := { rest : list Z; nextch : Z; rs : rstate; done : bool }.

(** In.Mod 157-160: module body; 15-21 [Open] does the same after rewinding. *)
Definition iinit (input : list Z) : ist := {| rest := input; nextch := 0; rs := pending; done := true |}.

(** In.Mod 23-28 [ReadChar]. *)
Definition ReadChar (s : ist) : ist :=
  match rest s with
  | c :: r => {| rest := r; nextch := c; rs := ready; done := done s |}
  | [] => {| rest := []; nextch := nextch s; rs := ateof; done := done s |}
  end.
Definition isready (s : ist) : bool := match rs s with ready => true | _ => false end.
Definition setdone (b : bool) (s : ist) : ist := {| rest := rest s; nextch := nextch s; rs := rs s; done := b |}.
Definition setpending (s : ist) : ist := {| rest := rest s; nextch := nextch s; rs := pending; done := done s |}.

(** In.Mod 30-33 [StartRead]. *)
Definition StartRead (s : ist) : ist := match rs s with pending => ReadChar s | _ => s end.

(** In.Mod 34-37 [StartAndSkip]. *)
Fixpoint skipblanks (fuel : nat) (s : ist) : res ist :=
  match fuel with
  | O => Fuel
  | S f => if isready s && (nextch s <=? 32) then skipblanks f (ReadChar s) else Ok s
  end.
Definition StartAndSkip (s : ist) : res ist := let s := StartRead s in skipblanks (S (S (length (rest s)))) s.

(** In.Mod 39-49 [Char(VAR ch)]. *)
Definition IChar (s : ist) : ist * Z :=
  let s := StartRead s in
  let s := setdone (isready s) s in
  if done s then
    let ch := nextch s in
    if ch =? 10 then (setpending s, ch) else (ReadChar s, ch)
  else (s, 0).

(** In.Mod 51-90 [HugeInt(VAR h)].  [arith]: what the C arithmetic does with an out-of-range result.  [h]: the previous value of the
    variable, unchanged at end of input.  ORD(nextch) MOD 16 is compiled to [nextch & 15]. *)
Definition digit_of (c : Z) : Z * bool :=
  if (48 <=? c) && (c <=? 57) then (Z.land c 15, false)
  else if (97 <=? c) && (c <=? 102) || (65 <=? c) && (c <=? 70) then (Z.land c 15 + 9, true)
  else (-1, false).
Fixpoint hugeint_loop (fuel : nat) (arith : Z -> res Z) (hex endofnum : bool) (decacc hexacc : Z) (s : ist) : res (bool * Z * Z * ist) :=
  match fuel with
  | O => Fuel
  | S f =>
      if isready s && negb endofnum then
        let (digit, ishex) := digit_of (nextch s) in
        let hex := hex || ishex in
        if digit >=? 0 then
          let s := setdone true s in
          let* d := arith (decacc * 10) in let* d := arith (d + digit) in
          let* h := arith (hexacc * 16) in let* h := arith (h + digit) in
          hugeint_loop f arith hex endofnum d h (ReadChar s)
        else if nextch s =? 72 then hugeint_loop f arith true true decacc hexacc (ReadChar s)
        else hugeint_loop f arith hex true decacc hexacc s
      else Ok (hex, decacc, hexacc, s)
  end.
Definition HugeInt (arith : Z -> res Z) (h : Z) (s : ist) : res (ist * Z) :=
  let* s := StartAndSkip s in
  let s := setdone false s in
  if isready s then
    let neg := nextch s =? 45 in
    let s := if neg then ReadChar s else s in
    let* r := hugeint_loop (S (S (S (length (rest s))))) arith false false 0 0 s in
    let '(hex, decacc, hexacc, s) := r in
    if done s then
      let h := if hex then hexacc else decacc in
      let* h := (if neg then arith (- h) else Ok h) in
      Ok (s, h)
    else Ok (s, 0)
  else Ok (s, h).

(** In.Mod 92-100 [Int], [LongInt]: SYSTEM.VAL to a 16-bit (32-bit) variable copies the low-order bytes. *)
Definition InInt (arith : Z -> res Z) (h : Z) (s : ist) : res (ist * Z) := let* (s, h) := HugeInt arith h s in Ok (s, wrap_s 16 h).
Definition InLongInt (arith : Z -> res Z) (h : Z) (s : ist) : res (ist * Z) := let* (s, h) := HugeInt arith h s in Ok (s, wrap_s 32 h).

(** In.Mod 102-111 [Line(VAR line)]. *)
Fixpoint line_loop (fuel : nat) (line : list Z) (i : Z) (s : ist) : res (list Z * Z * ist) :=
  match fuel with
  | O => Fuel
  | S f =>
      if isready s && negb (nextch s =? 13) && negb (nextch s =? 10) && (i <? zlen line - 1) then
        let* line := setA line i (nextch s) in line_loop f line (i + 1) (ReadChar s)
      else Ok (line, i, s)
  end.
Definition Line (line : list Z) (s : ist) : res (ist * list Z) :=
  let s := StartRead s in
  let s := setdone (isready s) s in
  let* r := line_loop (S (length line)) line 0 s in
  let '(line, i, s) := r in
  let* line := setA line i 0 in
  let s := if isready s && (nextch s =? 13) then ReadChar s else s in
  let s := if isready s && (nextch s =? 10) then setpending s else s in
  Ok (s, line).

(** In.Mod 113-133 [String(VAR str)]. *)
Fixpoint string_loop (fuel : nat) (str : list Z) (i : Z) (s : ist) : res (list Z * Z * ist) :=
  match fuel with
  | O => Fuel
  | S f =>
      if isready s && (i <? zlen str - 1) && (32 <=? nextch s) && negb (nextch s =? 34) then
        let* str := setA str i (nextch s) in string_loop f str (i + 1) (ReadChar s)
      else Ok (str, i, s)
  end.
Definition IString (str : list Z) (s : ist) : res (ist * list Z) :=
  let* s := StartAndSkip s in
  let* r := (if isready s && (nextch s =? 34) then string_loop (S (length str)) str 0 (ReadChar s) else Ok (str, 0, s)) in
  let '(str, i, s) := r in
  let s := setdone (isready s && (i <? zlen str - 1) && (nextch s =? 34)) s in
  if done s then let* str := setA str i 0 in Ok (ReadChar s, str)
  else let* str := setA str 0 0 in Ok (s, str).
