(** Model of src/library/ooc/oocStrings.Mod.  Arrays are value lists; a VAR parameter is returned.  INTEGER variables are
    unbounded integers: the theorems require LEN <= MAX(INTEGER) for every array, which keeps all of them in range.  Sums of
    parameters are computed in C with int or, where INTEGER has 4 bytes, with INTEGER: [chk 32] covers both. *)
From Verif Require Import Base ArrZ.

(** oocStrings.Mod 58-74. *)
Fixpoint length_loop (f : nat) (s : list Z) (i : Z) : res Z :=
  match f with
  | O => Fuel
  | S f => if i <? zlen s then let* c := getA s i in if c =? 0 then Ok i else length_loop f s (i + 1) else Ok i
  end.
Definition Length (s : list Z) : res Z := length_loop (S (length s)) s 0.

(** oocStrings.Mod 86-99. *)
Fixpoint assign_loop (f : nat) (source d : list Z) (i : Z) : res (list Z) :=
  match f with
  | O => Fuel
  | S f =>
    let i := i + 1 in
    let* c := getA source i in
    let* d := setA d i c in
    let* e := getA d i in
    if (e =? 0) || (i =? zlen d - 1) then setA d i 0 else assign_loop f source d i
  end.
Definition Assign (source d : list Z) : res (list Z) := assign_loop (S (length d)) source d (-1).

(** oocStrings.Mod 101-129. *)
Fixpoint extract_loop (f : nat) (source d : list Z) (pos n i : Z) : res (list Z) :=
  match f with
  | O => Fuel
  | S f =>
    if i <? n then
      let* c := getA source (pos + i) in
      if negb (c =? 0) then let* d := setA d i c in extract_loop f source d pos n (i + 1) else setA d i 0
    else setA d i 0
  end.
Definition Extract (source : list Z) (startPos numberToExtract : Z) (d : list Z) : res (list Z) :=
  let* sourceLength := Length source in
  let startPos := if startPos >? sourceLength then sourceLength else startPos in
  let numberToExtract := if numberToExtract >=? zlen d then zlen d - 1 else numberToExtract in
  extract_loop (S (S (length d))) source d startPos numberToExtract 0.

(** oocStrings.Mod 131-150. *)
Fixpoint delete_loop (f : nat) (s : list Z) (n last i : Z) : res (list Z) :=
  match f with
  | O => Fuel
  | S f => if i <=? last then let* c := getA s (i + n) in let* s := setA s i c in delete_loop f s n last (i + 1) else Ok s
  end.
Definition Delete (s : list Z) (startPos numberToDelete : Z) : res (list Z) :=
  let* stringLength := Length s in
  let* e := chk 32 (startPos + numberToDelete) in
  if e <? stringLength then delete_loop (S (S (length s))) s numberToDelete (stringLength - numberToDelete) startPos
  else if startPos <? stringLength then setA s startPos 0
  else Ok s.

(** oocStrings.Mod 152-191: the two FOR loops, and the procedure. *)
Fixpoint move_loop (f : nat) (d : list Z) (n first i : Z) : res (list Z) :=
  match f with
  | O => Fuel
  | S f => if first <=? i then let* c := getA d i in let* d := setA d (i + n) c in move_loop f d n first (i - 1) else Ok d
  end.
Fixpoint copy_loop (f : nat) (source d : list Z) (pos last i : Z) : res (list Z) :=
  match f with
  | O => Fuel
  | S f => if i <=? last then let* c := getA source i in let* d := setA d (pos + i) c in copy_loop f source d pos last (i + 1) else Ok d
  end.
Definition Insert (source : list Z) (startPos : Z) (d : list Z) : res (list Z) :=
  let* destLength := Length d in
  let* sourceLength := Length source in
  let destMax := zlen d - 1 in
  let* e := chk 32 (startPos + sourceLength) in
  let* (d, sourceLength) :=
    if e <? destMax then
      let* (d, destLength) :=
        if destLength + sourceLength >? destMax then
          let* d := setA d (destMax - sourceLength) 0 in Ok (d, destMax - sourceLength)
        else Ok (d, destLength) in
      let* d := move_loop (S (S (length d))) d sourceLength startPos destLength in
      Ok (d, sourceLength)
    else if startPos <=? destLength then
      let* d := setA d destMax 0 in Ok (d, destMax - startPos)
    else Ok (d, 0) in
  copy_loop (S (length d)) source d startPos (sourceLength - 1) 0.

(** oocStrings.Mod 193-215. *)
Fixpoint replace_loop (f : nat) (source d : list Z) (startPos destLength i : Z) : res (list Z) :=
  match f with
  | O => Fuel
  | S f =>
    if negb (startPos =? destLength) then
      let* c := getA source i in
      if negb (c =? 0) then let* d := setA d startPos c in replace_loop f source d (startPos + 1) destLength (i + 1) else Ok d
    else Ok d
  end.
Definition Replace (source : list Z) (startPos : Z) (d : list Z) : res (list Z) :=
  let* destLength := Length d in
  if startPos <? destLength then replace_loop (S (length d)) source d startPos destLength 0 else Ok d.

(** oocStrings.Mod 217-230. *)
Fixpoint append_loop (f : nat) (source d : list Z) (destLength i : Z) : res (list Z) :=
  match f with
  | O => Fuel
  | S f =>
    if destLength <? zlen d - 1 then
      let* c := getA source i in
      if negb (c =? 0) then let* d := setA d destLength c in append_loop f source d (destLength + 1) (i + 1) else setA d destLength 0
    else setA d destLength 0
  end.
Definition Append (source d : list Z) : res (list Z) :=
  let* destLength := Length d in append_loop (S (length d)) source d destLength 0.

(** oocStrings.Mod 232-253: both WHILE loops have this form. *)
Fixpoint concat_loop (f : nat) (source d : list Z) (j i : Z) : res (list Z * Z) :=
  match f with
  | O => Fuel
  | S f =>
    let* c := getA source j in
    if negb (c =? 0) && (i <? zlen d - 1) then let* d := setA d i c in concat_loop f source d (j + 1) (i + 1) else Ok (d, i)
  end.
Definition Concat (source1 source2 d : list Z) : res (list Z) :=
  let* (d, i) := concat_loop (S (length source1)) source1 d 0 0 in
  let* (d, i) := concat_loop (S (length source2)) source2 d 0 i in
  setA d i 0.

(** oocStrings.Mod 262-333. *)
Definition CanAssignAll (sl : Z) (d : list Z) : res bool := Ok (sl <? zlen d).
Definition CanExtractAll (sl pos n : Z) (d : list Z) : res bool := let* e := chk 32 (pos + n) in Ok ((e <=? sl) && (n <? zlen d)).
Definition CanDeleteAll (sl pos n : Z) : res bool := let* e := chk 32 (pos + n) in Ok (e <=? sl).
Definition CanInsertAll (sl pos : Z) (d : list Z) : res bool :=
  let* n := Length d in
  if pos <=? n then let* e := chk 32 (sl + n) in Ok (e <? zlen d) else Ok false.
Definition CanReplaceAll (sl pos : Z) (d : list Z) : res bool := let* e := chk 32 (sl + pos) in let* n := Length d in Ok (e <=? n).
Definition CanAppendAll (sl : Z) (d : list Z) : res bool := let* n := Length d in let* e := chk 32 (n + sl) in Ok (e <? zlen d).
Definition CanConcatAll (sl1 sl2 : Z) (d : list Z) : res bool := let* e := chk 32 (sl1 + sl2) in Ok (e <? zlen d).

(** oocStrings.Mod 342-379, 467-485: the loop that Compare, Equal and FindDiff begin with. *)
Fixpoint common_loop (f : nat) (a b : list Z) (i : Z) : res Z :=
  match f with
  | O => Fuel
  | S f =>
    let* c := getA a i in
    if negb (c =? 0) then let* e := getA b i in if c =? e then common_loop f a b (i + 1) else Ok i else Ok i
  end.
Definition Compare (a b : list Z) : res Z :=
  let* i := common_loop (S (length a)) a b 0 in
  let* c := getA a i in let* e := getA b i in
  Ok (if c <? e then -1 else if c >? e then 1 else 0).
Definition Equal (a b : list Z) : res bool :=
  let* i := common_loop (S (length a)) a b 0 in
  let* c := getA a i in
  if c =? 0 then let* e := getA b i in Ok (e =? 0) else Ok false.
(** The result is [differenceFound] and [posOfDifference], whose value before the call is the last argument. *)
Definition FindDiff (a b : list Z) (p : Z) : res (bool * Z) :=
  let* i := common_loop (S (length a)) a b 0 in
  let* c := getA a i in
  let* found := if negb (c =? 0) then Ok true else let* e := getA b i in Ok (negb (e =? 0)) in
  Ok (found, if found : bool then i else p).

(** oocStrings.Mod 381-420.  The result is [patternFound] and [posOfPattern]. *)
Fixpoint next_loop (f : nat) (pattern s : list Z) (startPos patternPos p : Z) : res (bool * Z) :=
  match f with
  | O => Fuel
  | S f =>
    let* c := getA pattern patternPos in
    if c =? 0 then Ok (true, startPos - patternPos) else
    let* e := getA s startPos in
    if e =? 0 then Ok (false, p) else
    if e =? c then next_loop f pattern s (startPos + 1) (patternPos + 1) p
    else next_loop f pattern s (startPos - patternPos + 1) 0 p
  end.
Definition FindNext (pattern s : list Z) (startPos p : Z) : res (bool * Z) :=
  let* n := Length s in
  if startPos <? n then next_loop (S (S (length s) * S (length pattern))) pattern s startPos 0 p else Ok (false, p).

(** oocStrings.Mod 422-465. *)
Fixpoint prev_loop (f : nat) (pattern s : list Z) (startPos patternPos p : Z) : res (bool * Z) :=
  match f with
  | O => Fuel
  | S f =>
    let* c := getA pattern patternPos in
    if c =? 0 then Ok (true, startPos - patternPos) else
    let* e := getA s startPos in
    if negb (e =? c) then
      if startPos >? patternPos then prev_loop f pattern s (startPos - patternPos - 1) 0 p else Ok (false, p)
    else prev_loop f pattern s (startPos + 1) (patternPos + 1) p
  end.
Definition FindPrev (pattern s : list Z) (startPos p : Z) : res (bool * Z) :=
  let* n := Length s in
  let* m := Length pattern in
  let startPos := if startPos >? n - m then n - m else startPos in
  if startPos >=? 0 then prev_loop (S (S (length s) * S (length pattern))) pattern s startPos 0 p else Ok (false, p).

(** oocStrings.Mod 488-499; CAP is SYSTEM.h 215: the character masked with 5FH. *)
Definition CAP (c : Z) : Z := Z.land c 95.
Fixpoint capitalize_loop (f : nat) (s : list Z) (i : Z) : res (list Z) :=
  match f with
  | O => Fuel
  | S f => let* c := getA s i in if negb (c =? 0) then let* s := setA s i (CAP c) in capitalize_loop f s (i + 1) else Ok s
  end.
Definition Capitalize (s : list Z) : res (list Z) := capitalize_loop (S (length s)) s 0.
