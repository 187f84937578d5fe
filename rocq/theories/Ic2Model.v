(** Integers from strings: src/library/ooc2/ooc2IntConv.Mod. LONGINT has 32 bits; strings are shorter than 2^15 characters (the indices have the type INTEGER). *)
From Verif Require Import Base.
(** The states SI, S, W of lines 44, 246-247, and the classes of characters of ooc2ConvTypes. *)
Inductive state := SI | SS | W.
Inductive class := padding | valid | invalid | terminator.
Inductive result := strAllRight | strOutOfRange | strWrongFormat | strEmpty.
(** ooc2CharClass.Mod 37-42 and 71-77. *)
Definition IsNumeric (c : Z) : bool := (48 <=? c) && (c <=? 57).
Definition IsWhiteSpace (c : Z) : bool := (c =? 32) || (c =? 12) || (c =? 10) || (c =? 13) || (c =? 9) || (c =? 11).
(** ooc2IntConv.Mod 53-58 [WState], 61-66 [SState], 69-115 [ScanInt]; the state behind a terminator is not used. *)
Definition step (s : state) (c : Z) : class * state :=
  match s with
  | W => if IsNumeric c then (valid, W) else (terminator, W)
  | SS => if IsNumeric c then (valid, W) else (invalid, SS)
  | SI => if IsWhiteSpace c then (padding, SI) else if (c =? 43) || (c =? 45) then (valid, SS) else if IsNumeric c then (valid, W) else (invalid, SI)
  end.
(** Lines 248-249; the arrays have eleven elements. *)
Definition minInt : list Z := [50; 49; 52; 55; 52; 56; 51; 54; 52; 56; 0].
Definition maxInt : list Z := [50; 49; 52; 55; 52; 56; 51; 54; 52; 55; 0].
Definition maxDigits : Z := 10.
(** ooc2IntConv.Mod 127-142 [LessOrEqual]. *)
Fixpoint LessOrEqual (f : nat) (str high : list Z) (start fin i : Z) : res bool :=
  match f with
  | O => Fuel
  | S f =>
    if negb (start =? fin) then
      let* a := getA str start in
      let* b := getA high i in
      if a <? b then Ok true else if a >? b then Ok false else LessOrEqual f str high (start + 1) fin (i + 1)
    else Ok true
  end.
Definition leq (str high : list Z) (start fin : Z) : res bool := LessOrEqual (S (Z.to_nat (fin - start))) str high start fin 0.
(** ooc2IntConv.Mod 168-179, the case of a terminator. *)
Definition finish (str : list Z) (ch index : Z) (positive : bool) (start : Z) : res result :=
  if ch =? 0 then
    if index - start <? maxDigits then Ok strAllRight
    else if index - start =? maxDigits then
      let* b := (if positive then leq str maxInt start index else leq str minInt start index) in
      Ok (if b then strAllRight else strOutOfRange)
    else Ok strOutOfRange
  else Ok strWrongFormat.
(** ooc2IntConv.Mod 144-183 [FormatInt]: the loop; [l] is the part of str from index on. *)
Fixpoint scan (str l : list Z) (index : Z) (prev : class) (s : state) (positive : bool) (start : Z) : res result :=
  match l with
  | [] => Trap (-2)
  | ch :: l =>
    let (c, s) := step s ch in
    match c with
    | padding => scan str l (index + 1) c s positive start
    | valid =>
      if ch =? 45 then scan str l (index + 1) c s false start
      else if ch =? 43 then scan str l (index + 1) c s true start
      else scan str l (index + 1) c s positive (if (start <? 0) && negb (ch =? 48) then index else start)
    | invalid => Ok (match prev with padding => if ch =? 0 then strEmpty else strWrongFormat | _ => strWrongFormat end)
    | terminator => finish str ch index positive start
    end
  end.
Definition FormatInt (str : list Z) : res result := scan str str 0 padding SI true (-1).
(** ooc2IntConv.Mod 199-204: skips to the first digit. *)
Fixpoint skip (l : list Z) (positive : bool) : res (bool * list Z) :=
  match l with [] => Trap (-2) | c :: l' => if (c <? 48) || (c >? 57) then skip l' (if c =? 45 then false else positive) else Ok (positive, l) end.
(** ooc2IntConv.Mod 206-217: the digits up to the 0X. *)
Fixpoint digits (l : list Z) (positive : bool) (int : Z) : res Z :=
  match l with
  | [] => Trap (-2)
  | c :: l => if negb (c =? 0) then
      let* t := chk 32 (int * 10) in
      let* int := chk 32 (if positive then t + (c - 48) else t - (c - 48)) in
      digits l positive int
    else Ok int
  end.
(** ooc2IntConv.Mod 186-222 [ValueInt]. *)
Definition ValueInt (str : list Z) : res Z :=
  let* r := FormatInt str in
  match r with strAllRight => let* (p, l) := skip str true in digits l p 0 | _ => Ok 0 end.
(** ooc2IntConv.Mod 225-242 [LengthInt]. *)
Fixpoint length_loop (f : nat) (int cnt : Z) : res Z := match f with O => Fuel | S f => if int >? 0 then length_loop f (int / 10) (cnt + 1) else Ok cnt end.
Definition LengthInt (int : Z) : res Z :=
  if int =? - 2147483648 then Ok (maxDigits + 1)
  else if int <=? 0 then let* int := chk 32 (- int) in length_loop 11 int 1 else length_loop 11 int 0.
