(** Model of src/runtime/Strings.Mod (without the real-number conversions).
    Arrays are value lists; a VAR parameter is returned.  INTEGER locals are modelled as unbounded integers: the
    theorems require LEN <= MAX(INTEGER) for every array, which keeps all of them in range. *)
From Verif Require Import Base ArrZ.

(** Strings.Mod 34-39 [Length]: loop, then saturation at MAX(INTEGER) = 32767. *)
Fixpoint length_loop (fuel : nat) (s : list Z) (i : Z) : res Z :=
  match fuel with
  | O => Fuel
  | S f =>
      if i <? zlen s then
        let* c := getA s i in
        if c =? 0 then Ok i else length_loop f s (i + 1)
      else Ok i
  end.
Definition Length (s : list Z) : res Z :=
  let* i := length_loop (S (length s)) s 0 in
  Ok (if i <=? 32767 then i else 32767).

(** Strings.Mod 42-48 [Append(extra, VAR dest)]. *)
Fixpoint append_loop (fuel : nat) (extra dest : list Z) (n1 n2 i : Z) : res (list Z * Z) :=
  match fuel with
  | O => Fuel
  | S f =>
      if (i <? n2) && (i + n1 <? zlen dest) then
        let* c := getA extra i in
        let* dest' := setA dest (i + n1) c in
        append_loop f extra dest' n1 n2 (i + 1)
      else Ok (dest, i)
  end.
Definition Append (extra dest : list Z) : res (list Z) :=
  let* n1 := Length dest in
  let* n2 := Length extra in
  let* r := append_loop (S (length extra)) extra dest n1 n2 0 in
  let '(dest', i) := r in
  if i + n1 <? zlen dest' then setA dest' (i + n1) 0 else Ok dest'.

(** Strings.Mod 51-65 [Insert(source, pos, VAR dest)].  Line 57: for pos > Length(dest) it calls Append(dest, source), which
    changes only the local copy of source, so dest is returned unchanged. *)
Fixpoint insert_room (fuel : nat) (dest : list Z) (pos n2 i : Z) : res (list Z) :=
  match fuel with
  | O => Fuel
  | S f =>
      if i >=? pos then
        let* dest' := (if i + n2 <? zlen dest then
                         let* c := getA dest i in setA dest (i + n2) c
                       else Ok dest) in
        insert_room f dest' pos n2 (i - 1)
      else Ok dest
  end.
Fixpoint insert_copy (fuel : nat) (source dest : list Z) (pos n2 i : Z) : res (list Z) :=
  match fuel with
  | O => Fuel
  | S f =>
      if i <? n2 then
        let* c := getA source i in
        let* dest' := setA dest (pos + i) c in
        insert_copy f source dest' pos n2 (i + 1)
      else Ok dest
  end.
Definition Insert (source : list Z) (pos : Z) (dest : list Z) : res (list Z) :=
  let* n1 := Length dest in
  let* n2 := Length source in
  let pos := if pos <? 0 then 0 else pos in
  if pos >? n1 then (let* _ := Append dest source in Ok dest) else
  let* dest1 := (if pos + n2 <? zlen dest then insert_room (S (S (length dest))) dest pos n2 n1 else Ok dest) in
  insert_copy (S (length source)) source dest1 pos n2 0.

(** Strings.Mod 68-78 [Delete(VAR s, pos, n)]. *)
Fixpoint delete_loop (fuel : nat) (s : list Z) (len n i : Z) : res (list Z * Z) :=
  match fuel with
  | O => Fuel
  | S f =>
      if i <? len then
        let* c := getA s i in
        let* s' := setA s (i - n) c in
        delete_loop f s' len n (i + 1)
      else Ok (s, i)
  end.
Definition Delete (s : list Z) (pos n : Z) : res (list Z) :=
  let* len := Length s in
  if (0 <=? pos) && (pos >=? len) then Ok s else
  let pos := if pos <? 0 then 0 else pos in
  if pos + n <? len then
    let* r := delete_loop (S (length s)) s len n (pos + n) in
    let '(s', i) := r in
    if i - n <? zlen s' then setA s' (i - n) 0 else Ok s'
  else setA s pos 0.

(** Strings.Mod 81-85 [Replace(source, pos, VAR dest)]. *)
Definition Replace (source : list Z) (pos : Z) (dest : list Z) : res (list Z) :=
  let* n := Length source in
  let* dest' := Delete dest pos (pos + n) in
  Insert source pos dest'.

(** Strings.Mod 88-100 [Extract(source, pos, n, VAR dest)]. *)
Fixpoint extract_loop (fuel : nat) (source dest : list Z) (pos n destLen i : Z) : res (list Z * Z) :=
  match fuel with
  | O => Fuel
  | S f =>
      if pos + i <=? zlen source then
        let* c := getA source (pos + i) in
        if negb (c =? 0) && (i <? n) then
          let* dest' := (if i <? destLen then setA dest i c else Ok dest) in
          extract_loop f source dest' pos n destLen (i + 1)
        else Ok (dest, i)
      else Ok (dest, i)
  end.
Definition Extract (source : list Z) (pos n : Z) (dest : list Z) : res (list Z) :=
  let* len := Length source in
  let destLen := zlen dest - 1 in
  let pos := if pos <? 0 then 0 else pos in
  if pos >=? len then setA dest 0 0 else
  let* r := extract_loop (S (S (length source))) source dest pos n destLen 0 in
  let '(dest', i) := r in setA dest' i 0.

(** Strings.Mod 103-117 [Pos(pattern, s, pos)]. *)
Fixpoint pos_inner (fuel : nat) (pattern s : list Z) (n2 i j : Z) : res Z :=
  match fuel with
  | O => Fuel
  | S f =>
      if j <? n2 then
        let* a := getA s (i + j) in
        let* b := getA pattern j in
        if a =? b then pos_inner f pattern s n2 i (j + 1) else Ok j
      else Ok j
  end.
Fixpoint pos_outer (fuel : nat) (pattern s : list Z) (n1 n2 i : Z) : res Z :=
  match fuel with
  | O => Fuel
  | S f =>
      if i <=? n1 - n2 then
        let* a := getA s i in
        let* b := getA pattern 0 in
        if a =? b then
          let* j := pos_inner (S (length pattern)) pattern s n2 i 1 in
          if j =? n2 then Ok i else pos_outer f pattern s n1 n2 (i + 1)
        else pos_outer f pattern s n1 n2 (i + 1)
      else Ok (-1)
  end.
Definition Pos (pattern s : list Z) (pos : Z) : res Z :=
  let* n1 := Length s in
  let* n2 := Length pattern in
  if n2 =? 0 then Ok 0 else pos_outer (S (S (length s))) pattern s n1 n2 pos.

(** Strings.Mod 120-128 [Cap(VAR s)]; CAP as in SYSTEM.h 215. *)
Fixpoint cap_loop (fuel : nat) (s : list Z) (i : Z) : res (list Z) :=
  match fuel with
  | O => Fuel
  | S f =>
      let* c := getA s i in
      if c =? 0 then Ok s else
      let* s' := (if (97 <=? c) && (c <=? 122) then setA s i (Z.land c 95) else Ok s) in
      cap_loop f s' (i + 1)
  end.
Definition Cap (s : list Z) : res (list Z) := cap_loop (S (length s)) s 0.

(** Strings.Mod 131-154 [Match(string, pattern)], local procedure [M] (133-149).  The three loops of M: *)
Definition star : Z := 42.
(** 135-138: compare from the end; [inl r]: the procedure returned r, [inr (n, m)]: the loop ended. *)
Fixpoint m_tail (fuel : nat) (name mask : list Z) (n m : Z) : res (bool + Z * Z) :=
  match fuel with
  | O => Fuel
  | S f =>
      if (n >=? 0) && (m >=? 0) then
        let* b := getA mask m in
        if b =? star then Ok (inr (n, m)) else
        let* a := getA name n in
        if negb (a =? b) then Ok (inl false) else m_tail f name mask (n - 1) (m - 1)
      else Ok (inr (n, m))
  end.
(** 142: skip the stars. *)
Fixpoint m_stars (fuel : nat) (mask : list Z) (m : Z) : res Z :=
  match fuel with
  | O => Fuel
  | S f =>
      if m >=? 0 then
        let* b := getA mask m in
        if b =? star then m_stars f mask (m - 1) else Ok m
      else Ok m
  end.
(** 145-148: try every split. *)
Fixpoint m_try (M : Z -> Z -> res bool) (fuel : nat) (n m : Z) : res bool :=
  match fuel with
  | O => Fuel
  | S f =>
      if n >=? 0 then
        let* r := M n m in
        if r then Ok true else m_try M f (n - 1) m
      else Ok false
  end.
(** [fuel] bounds the recursion depth of M: each recursive call has passed at least one star. *)
Fixpoint M (fuel : nat) (name mask : list Z) (n m : Z) : res bool :=
  match fuel with
  | O => Fuel
  | S f =>
      let* r := m_tail (S (length mask)) name mask n m in
      match r with
      | inl b => Ok b
      | inr (n, m) =>
          if m <? 0 then Ok (n <? 0) else
          let* m := m_stars (S (length mask)) mask m in
          if m <? 0 then Ok true else
          m_try (M f name mask) (S (length name)) n m
      end
  end.
Definition Match (string pattern : list Z) : res bool :=
  let* n := Length string in
  let* m := Length pattern in
  M (S (length pattern)) string pattern (n - 1) (m - 1).
