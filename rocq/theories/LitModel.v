(** Sizes of integer constants, and the constants written to the C files. *)
From Verif Require Import Base ArithModel.

(** ** Sizes *)
(** OPM.Mod 156-166 [SignedMaximum], [SignedMinimum] as C defines them: for 8 bytes result - 1 overflows. *)
Definition SignedMaximum_strict (bytecount : Z) : res Z := let* r := LSH 1 (bytecount * 8 - 1) 64 in chk 64 (r - 1).
(** The same with subtraction that wraps around, which is what the compiler's users get from the C compilers in use. *)
Definition SignedMaximum (bytecount : Z) : res Z := let* r := LSH 1 (bytecount * 8 - 1) 64 in Ok (wrap_s 64 (r - 1)).
Definition SignedMinimum (bytecount : Z) : res Z := let* m := SignedMaximum bytecount in Ok (wrap_s 64 (- m - 1)).

(** OPT.Mod 228-235 [IntSize]. *)
Fixpoint size_loop (fuel : nat) (n bytes : Z) : res Z :=
  match fuel with
  | O => Fuel
  | S f => if bytes <? 8 then let* s := ASH n (- (8 * bytes - 1)) in if negb (s =? 0) then size_loop f n (bytes + 1) else Ok bytes else Ok bytes
  end.
Definition IntSize (n : Z) : res Z := let* n := (if n <? 0 then let* m := chk 64 (n + 1) in chk 64 (- m) else Ok n) in size_loop 9 n 1.
(** OPT.Mod 237-244 [IntType]; a type is given by its size, those of int8typ .. int64typ are 1, 2, 4, 8 (OPT.Mod 1351-1354). *)
Definition IntType (size : Z) : Z := if size <=? 1 then 1 else if size <=? 2 then 2 else if size <=? 4 then 4 else 8.
(** OPB.Mod 106-108 [SetIntType]. *)
Definition SetIntType (v : Z) : res Z := let* s := IntSize v in Ok (IntType s).
(** OPT.Mod 252-270 [ShorterOrLongerType].  The sizes of SHORTINT, INTEGER and LONGINT are parameters (OPM.Mod 328-333). *)
Definition Longer (sint int lint size : Z) : Z := if size <? sint then sint else if size <? int then int else if size <? lint then lint else 8.
Definition Shorter (sint int lint size : Z) : Z := if size >? lint then lint else if size >? int then int else if size >? sint then sint else 1.

(** ** Integers in C *)
(** OPM.Mod 699-700: the digits, lowest first; s[k] is the next character of the list, which must not exceed the 26 elements of s. *)
Fixpoint wi_loop (fuel : nat) (i1 : Z) (s : list Z) : res (list Z) :=
  match fuel with
  | O => Fuel
  | S f => if i1 >? 0 then (if Z.of_nat (length s) <? 26 then wi_loop f (i1 / 10) (s ++ [i1 mod 10 + 48]) else Trap (-2)) else Ok s
  end.
(** OPM.Mod 688-704 [WriteInt]: the text written. *)
Fixpoint WriteInt_ (fuel : nat) (i : Z) : res (list Z) :=
  match fuel with
  | O => Fuel
  | S f =>
      let* m2 := SignedMinimum 2 in
      let* m4 := SignedMinimum 4 in
      let* m8 := SignedMinimum 8 in
      if (i =? m2) || (i =? m4) || (i =? m8) then let* j := chk 64 (i + 1) in let* t := WriteInt_ f j in Ok ([40] ++ t ++ [45; 49; 41])
      else
        let* i1 := ABS_inline 64 i in
        let s := if i1 <=? 2147483647 then [] else [76; 76] in
        let s := s ++ [i1 mod 10 + 48] in
        let* s := wi_loop 64 (i1 / 10) s in
        let* s := (if i <? 0 then if Z.of_nat (length s) <? 26 then Ok (s ++ [45]) else Trap (-2) else Ok s) in
        Ok (rev s)
  end.
Definition WriteInt (i : Z) : res (list Z) := WriteInt_ 2 i.
(** OPC.Mod 1207-1215 [IntLiteral]: ((INT64)(n)). *)
Definition IntLiteral (n size : Z) : res (list Z) :=
  if (size >? 4) && (n <=? 2147483647) && (n >? -2147483648) then
    let* a := WriteInt (size * 8) in let* b := WriteInt n in Ok ([40; 40; 73; 78; 84] ++ a ++ [41; 40] ++ b ++ [41; 41])
  else WriteInt n.
(** OPM.Mod 676-686 [WriteHex]. *)
Definition hexchar (digit : Z) : Z := if digit <? 10 then 48 + digit else 97 - 10 + digit.
Definition WriteHex (i : Z) : list Z := [hexchar (Z.shiftr (wrap_s 32 i) 4); hexchar (wrap_s 32 i mod 16)].
(** OPC.Mod 1243-1256 [Constant] for sets; s is the unsigned 64-bit word of the set. *)
Fixpoint set_byte (fuel : nat) (s i hex : Z) : res (Z * Z) :=
  match fuel with
  | O => Fuel
  | S f => let i := i - 1 in let hex := 2 * hex + (if Z.testbit s i then 1 else 0) in if i mod 8 =? 0 then Ok (i, hex) else set_byte f s i hex
  end.
Fixpoint set_loop (fuel : nat) (s i : Z) (skipLeading : bool) (out : list Z) : res (list Z * bool) :=
  match fuel with
  | O => Fuel
  | S f =>
      let* (i, hex) := set_byte 8 s i 0 in
      let '(out, skipLeading) := if negb (hex =? 0) || negb skipLeading then (out ++ WriteHex hex, false) else (out, skipLeading) in
      if i =? 0 then Ok (out, skipLeading) else set_loop f s i skipLeading out
  end.
Definition SetConstant (s : Z) : res (list Z) := let* (t, skip) := set_loop 8 s 64 true [48; 120] in Ok (if skip then t ++ [48] else t).

(** ** Characters and strings in C *)
(** OPC.Mod 1139-1151 [CharacterLiteral]. *)
Definition CharacterLiteral (c : Z) : list Z :=
  if (c <? 32) || (c >? 126) then [48; 120] ++ WriteHex c
  else [39] ++ (if (c =? 92) || (c =? 39) || (c =? 63) then [92] else []) ++ [c] ++ [39].
(** OPC.Mod 1153-1177 [StringLiteral]; s holds the l characters of the string. *)
Definition string_char (c : Z) : list Z :=
  if (c <? 32) || (c >? 126) then [92; 48 + c / 64; 48 + c mod 64 / 8; 48 + c mod 64 mod 8]
  else (if (c =? 92) || (c =? 34) || (c =? 63) then [92] else []) ++ [c].
Definition StringLiteral (s : list Z) : list Z := [34] ++ flat_map string_char s ++ [34].
