(** The line an error message shows. *)
From Verif Require Import Base ArrZ.

(** A rider: position and eof.  Files.Read past the end gives 0X and sets eof; Files.Set clamps the position and clears eof (Files.Mod 364-, proved in FilesProps). *)
Definition rider := (Z * bool)%type.
Definition Read (text : list Z) (r : rider) : Z * rider := if fst r <? zlen text then (ix text (fst r), (fst r + 1, snd r)) else (0, (fst r, true)).
Definition Set_ (text : list Z) (pos : Z) : rider := ((if pos <? 0 then 0 else if pos >? zlen text then zlen text else pos), false).
(** ErrorLineStartPos, ErrorLineLimitPos, ErrorLineNumber (OPM.Mod 112-114); LONGINTs and INT64s, taken as unbounded. *)
Record cache := { Start : Z; Limit : Z; Number : Z }.
Definition fresh : cache := {| Start := 0; Limit := 0; Number := 0 |}.
Definition eol (ch : Z) : bool := (ch =? 0) || (ch =? 13) || (ch =? 10).
(** OPM.Mod 456-458 *)
Fixpoint skip (fuel : nat) (text : list Z) (ch : Z) (r : rider) (limit : Z) : res (Z * rider * Z) :=
  match fuel with
  | O => Fuel
  | S f => if eol ch then Ok (ch, r, limit) else let '(ch, r) := Read text r in skip f text ch r (limit + 1)
  end.
(** OPM.Mod 453-463 *)
Fixpoint find_loop (fuel : nat) (text : list Z) (pos : Z) (ch : Z) (r : rider) (c : cache) : res cache :=
  match fuel with
  | O => Fuel
  | S f =>
      if (Limit c <? pos) && negb (snd r) then
        let start := Limit c in
        let number := Number c + 1 in
        let* x := skip (S (length text)) text ch r (Limit c) in
        let '(cheol, r, limit) := x in
        let '(ch, r) := Read text r in
        let limit := limit + 1 in
        let '(limit, ch, r) := if (cheol =? 13) && (ch =? 10) then (let '(ch, r) := Read text r in (limit + 1, ch, r)) else (limit, ch, r) in
        find_loop f text pos ch r {| Start := start; Limit := limit; Number := number |}
      else Ok c
  end.
(** OPM.Mod 436-465 [FindLine]; the rider is set to the start of the line in the end. *)
Definition FindLine (text : list Z) (pos : Z) (c : cache) : res cache :=
  let c := if pos <? Start c then fresh else c in
  if pos <? Limit c then Ok c
  else let '(ch, r) := Read text (Set_ text (Limit c)) in find_loop (S (length text)) text pos ch r c.
(** OPM.Mod 478-483, 489: the characters shown; line has 1023 elements. *)
Fixpoint line_loop (fuel : nat) (text : list Z) (ch : Z) (r : rider) (line : list Z) : res (list Z) :=
  match fuel with
  | O => Fuel
  | S f => if negb (eol ch) && (zlen line <? 1023 - 1) then let '(c, r) := Read text r in line_loop f text c r (line ++ [ch]) else Ok line
  end.
(** OPM.Mod 468-494 [ShowLine]: line number, line and column of the "^".  SHORT(Longint( )) gives an INTEGER, of 16 bits in the compiler; a negative or zero count writes
    no blanks. *)
Definition ShowLine (text : list Z) (pos : Z) (c : cache) : res (cache * Z * list Z * Z) :=
  let* c := FindLine text pos c in
  let '(ch, r) := Read text (Set_ text (Start c)) in
  let* line := line_loop 1024 text ch r [] in
  let pos := if pos >=? Limit c then Limit c - 1 else pos in
  Ok (c, Number c, line, Z.max 0 (wrap_s 16 (pos - Start c))).
(** The saved positions after a sequence of calls. *)
Inductive reachable (text : list Z) : cache -> Prop :=
| reach_fresh : reachable text fresh
| reach_call : forall c pos c', reachable text c -> 0 <= pos <= zlen text -> FindLine text pos c = Ok c' -> reachable text c'.
