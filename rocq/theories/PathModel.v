(** Path names: src/runtime/Modules.Mod 80-171, src/runtime/Files.Mod 87-113, 233-265.
    Arrays are value lists, a VAR parameter is returned.  INTEGER locals are unbounded: the theorems keep them small. *)
From Verif Require Import Base ArrZ StringsModel CStrModel.

(** Modules.Mod 80-85 [CharCount] has the loop of Strings.Length without the saturation. *)
Definition CharCount (s : list Z) : res Z := length_loop (S (length s)) s 0.

(** Modules.Mod 91, 103: [WHILE s[i] # 0X DO d[j] := s[i]; INC(i); INC(j) END]. *)
Fixpoint copyz (fuel : nat) (s : list Z) (i : Z) (d : list Z) (j : Z) : res (list Z * Z) :=
  match fuel with
  | O => Fuel
  | S f =>
      let* c := getA s i in
      if c =? 0 then Ok (d, j)
      else let* d := setA d j c in copyz f s (i + 1) d (j + 1)
  end.

(** Modules.Mod 87-93 [Append(s, VAR d)]. *)
Definition MAppend (s d : list Z) : res (list Z) :=
  let* j := CharCount d in
  let* (d, j) := copyz (S (length s)) s 0 d j in
  setA d j 0.

(** Modules.Mod 95-105 [AppendPart(c, s, VAR d)]. *)
Definition AppendPart (c : Z) (s d : list Z) : res (list Z) :=
  let* j := CharCount d in
  let* (d, j) := (if j >? 0 then
                    let* l := getA d (j - 1) in
                    if negb (l =? c) then let* d := setA d j c in Ok (d, j + 1) else Ok (d, j)
                  else Ok (d, j)) in
  let* (d, j) := copyz (S (length s)) s 0 d j in
  setA d j 0.

(** Modules.Mod 107-113 [IsOneOf(c, s)]. *)
Fixpoint oneof_loop (fuel : nat) (c : Z) (s : list Z) (i : Z) : res bool :=
  match fuel with
  | O => Fuel
  | S f =>
      let* x := getA s i in
      if negb (x =? c) && negb (x =? 0) then oneof_loop f c s (i + 1) else Ok (x =? c)
  end.
Definition IsOneOf (c : Z) (s : list Z) : res bool :=
  if c =? 0 then Ok false else oneof_loop (S (length s)) c s 0.

(** The string constants '/\' and ':;'. *)
Definition seps : list Z := [47; 92; 0].
Definition listseps : list Z := [58; 59; 0].

(** Modules.Mod 115-121 [IsAbsolute(d)]. *)
Definition IsAbsolute (d : list Z) : res bool :=
  let* c0 := getA d 0 in
  if c0 =? 0 then Ok false else
  let* s := IsOneOf c0 seps in
  if s then Ok true else
  let* c1 := getA d 1 in
  Ok (c1 =? 58).

(** Modules.Mod 123-130 [Canonify(s, VAR d)]; [cwd] is Platform.CWD. *)
Definition Canonify (cwd s d : list Z) : res (list Z) :=
  let* a := IsAbsolute s in
  if a then COPY s d else let* d := COPY cwd d in AppendPart 47 s d.

(** Modules.Mod 139-152 [ExtractPart(s, VAR i, p, VAR d)]. *)
Fixpoint extract_loop (fuel : nat) (s : list Z) (i : Z) (p d : list Z) (j : Z) : res (Z * list Z * Z) :=
  match fuel with
  | O => Fuel
  | S f =>
      let* c := getA s i in
      let* b := (if c =? 0 then Ok true else IsOneOf c p) in
      if b then Ok (i, d, j)
      else let* d := setA d j c in extract_loop f s (i + 1) p d (j + 1)
  end.
Fixpoint skip_loop (fuel : nat) (s : list Z) (i : Z) (p : list Z) : res Z :=
  match fuel with
  | O => Fuel
  | S f =>
      let* c := getA s i in
      let* b := IsOneOf c p in
      if b then skip_loop f s (i + 1) p else Ok i
  end.
Definition ExtractPart (s : list Z) (i : Z) (p d : list Z) : res (Z * list Z) :=
  let* r := extract_loop (S (length s)) s i p d 0 in
  let '(i, d, j) := r in
  let* d := setA d j 0 in
  let* i := skip_loop (S (length s)) s i p in
  Ok (i, d).

(** Modules.Mod 154-171 [Trim(s, VAR d)].  The local array part is taken to be zero at first; it is always written
    before it is read.  Lines 168: [part # ''] and [part # '.'] compare strings. *)
Fixpoint lead_loop (fuel : nat) (s : list Z) (i : Z) (d : list Z) (j : Z) : res (Z * list Z * Z) :=
  match fuel with
  | O => Fuel
  | S f =>
      let* b := (if i <? 2 then let* c := getA s i in IsOneOf c seps else Ok false) in
      if b then let* d := setA d j 47 in lead_loop f s (i + 1) d (j + 1) else Ok (i, d, j)
  end.
Fixpoint trim_loop (fuel : nat) (s : list Z) (i : Z) (part d : list Z) : res (list Z) :=
  match fuel with
  | O => Fuel
  | S f =>
      let* c := getA s i in
      if c =? 0 then Ok d else
      let* (i, part) := ExtractPart s i seps part in
      let* d := (match str_of part with [] => Ok d | [46] => Ok d | _ => AppendPart 47 part d end) in
      trim_loop f s i part d
  end.
Definition Trim (s d : list Z) : res (list Z) :=
  let* r := lead_loop 3 s 0 d 0 in
  let '(i, d, j) := r in
  let* d := setA d j 0 in
  trim_loop (S (length s)) s i (repeat 0 1024) d.

(** Files.Mod 87-98 [MakeFileName(dir, name, VAR dest)]; 75-85 [Err] stops the program with HALT(99). *)
Fixpoint chop_loop (fuel : nat) (dir : list Z) (ld : Z) : res Z :=
  match fuel with
  | O => Fuel
  | S f =>
      if ld >? 0 then let* c := getA dir (ld - 1) in if c =? 47 then chop_loop f dir (ld - 1) else Ok ld
      else Ok ld
  end.
(** [WHILE k < n DO dest[i] := src[k]; INC(i); INC(k) END]. *)
Fixpoint copyn (fuel : nat) (src : list Z) (k n : Z) (dest : list Z) (i : Z) : res (list Z * Z) :=
  match fuel with
  | O => Fuel
  | S f =>
      if k <? n then let* c := getA src k in let* dest := setA dest i c in copyn f src (k + 1) n dest (i + 1)
      else Ok (dest, i)
  end.
Definition MakeFileName (dir name dest : list Z) : res (list Z) :=
  let* ld := Length dir in
  let* ln := Length name in
  let* ld := chop_loop (S (length dir)) dir ld in
  if ld + ln + 2 >? zlen dest then Trap 99 else
  let* (dest, i) := copyn (S (length dir)) dir 0 ld dest 0 in
  let* (dest, i) := (if i >? 0 then let* dest := setA dest i 47 in Ok (dest, i + 1) else Ok (dest, i)) in
  let* (dest, i) := copyn (S (length name)) name 0 ln dest i in
  setA dest i 0.

(** Files.Mod 100-113 [GetTempName(finalName, VAR name)]; [tempno] and [pid] are the module variables, both INTEGER
    (16 bits, bootstrap Files.c 53, Platform.c 20).  Returns the new tempno. *)
Fixpoint slash_loop (fuel : nat) (name : list Z) (i : Z) : res Z :=
  match fuel with
  | O => Fuel
  | S f =>
      if i >? 0 then let* c := getA name i in if negb (c =? 47) then slash_loop f name (i - 1) else Ok i
      else Ok i
  end.
Fixpoint digits_loop (fuel : nat) (n : Z) (name : list Z) (i : Z) : res (list Z * Z) :=
  match fuel with
  | O => Fuel
  | S f =>
      if n >? 0 then let* name := setA name i (n mod 10 + 48) in digits_loop f (n / 10) name (i + 1)
      else Ok (name, i)
  end.
Definition GetTempName (cwd : list Z) (tempno pid : Z) (finalName name : list Z) : res (Z * list Z) :=
  let* c := getA finalName 0 in
  let* name := (if c =? 47 then COPY finalName name else MakeFileName cwd finalName name) in
  let* l := Length name in
  let* i := slash_loop (S (length name)) name (l - 1) in
  if i + 16 >=? zlen name then Trap 99 else
  let tempno := wrap_s 16 (tempno + 1) in
  let* name := setA name (i + 1) 46 in
  let* name := setA name (i + 2) 116 in
  let* name := setA name (i + 3) 109 in
  let* name := setA name (i + 4) 112 in
  let* name := setA name (i + 5) 46 in
  let* (name, i) := digits_loop 6 tempno name (i + 6) in
  let* name := setA name i 46 in
  let* (name, i) := digits_loop 6 pid name (i + 1) in
  let* name := setA name i 0 in
  Ok (tempno, name).

(** Files.Mod 260-265 [HasDir(name)]. *)
Fixpoint hasdir_loop (fuel : nat) (name : list Z) (i : Z) : res bool :=
  match fuel with
  | O => Fuel
  | S f =>
      let* c := getA name i in
      if negb (c =? 0) && negb (c =? 47) then hasdir_loop f name (i + 1) else Ok (c =? 47)
  end.
Definition HasDir (name : list Z) : res bool := hasdir_loop (S (length name)) name 0.

(** Files.Mod 233-258 [ScanPath(VAR pos, VAR dir)]: the loops and the procedure.  [sp]: SearchPath, None for NIL. *)
Fixpoint skipsep (fuel : nat) (sp : list Z) (pos : Z) : res Z :=
  match fuel with
  | O => Fuel
  | S f => let* c := getA sp pos in if (c =? 32) || (c =? 59) then skipsep f sp (pos + 1) else Ok pos
  end.
Fixpoint takedir (fuel : nat) (sp : list Z) (pos : Z) (dir : list Z) (i : Z) : res (Z * list Z * Z) :=
  match fuel with
  | O => Fuel
  | S f =>
      let* c := getA sp pos in
      if negb (c =? 0) && negb (c =? 59) then let* dir := setA dir i c in takedir f sp (pos + 1) dir (i + 1)
      else Ok (pos, dir, i)
  end.
(** [WHILE (i > 0) & (dir[i-1] <= x> c) DO DEC(i) END]; [keep c] says whether to stop at c. *)
Fixpoint back_loop (fuel : nat) (keep : Z -> bool) (dir : list Z) (i : Z) : res Z :=
  match fuel with
  | O => Fuel
  | S f =>
      if i >? 0 then let* c := getA dir (i - 1) in if keep c then Ok i else back_loop f keep dir (i - 1)
      else Ok i
  end.
Definition ScanPath (home : list Z) (sp : option (list Z)) (pos : Z) (dir : list Z) : res (Z * list Z) :=
  match sp with
  | None =>
      if pos =? 0 then let* dir := setA dir 0 46 in let* dir := setA dir 1 0 in Ok (pos + 1, dir)
      else let* dir := setA dir 0 0 in Ok (pos, dir)
  | Some sp =>
      let* pos := skipsep (S (length sp)) sp pos in
      let* ch := getA sp pos in
      let* r := (if ch =? 126 then
                   let* ch := getA sp (pos + 1) in
                   let* (dir, i) := copyz (S (length home)) home 0 dir 0 in
                   let* i := (if negb (ch =? 47) && negb (ch =? 0) && negb (ch =? 59) && negb (ch =? 32)
                              then back_loop (S (length home)) (fun c => c =? 47) dir i else Ok i) in
                   Ok (pos + 1, dir, i)
                 else Ok (pos, dir, 0)) in
      let '(pos, dir, i) := r in
      let* r := takedir (S (length sp)) sp pos dir i in
      let '(pos, dir, i) := r in
      let* i := back_loop (S (length dir)) (fun c => negb (c =? 32)) dir i in
      let* dir := setA dir i 0 in
      Ok (pos, dir)
  end.

(** Files.Mod 287-333 [Old(name)]: which path is opened.  [opens p]: whether Platform.OldRW or OldRO succeeds on p (an oracle
    for the file system, asked with the string p).  The result is the string under which the file was opened, or None for NIL.
    Not modelled here: the cache of open files, warnings, the "too many files open" halt. *)
Fixpoint old_loop (fuel : nat) (opens : list Z -> bool) (home : list Z) (sp : option (list Z)) (name : list Z) (pos : Z)
    (dir path : list Z) : res (option (list Z)) :=
  match fuel with
  | O => Fuel
  | S f =>
      if opens (str_of path) then Ok (Some (str_of path))
      else
        let* c := getA dir 0 in
        if c =? 0 then Ok None
        else
          let* path := MakeFileName dir name path in
          let* (pos, dir) := ScanPath home sp pos dir in
          old_loop f opens home sp name pos dir path
  end.
Definition Old (opens : list Z -> bool) (home : list Z) (sp : option (list Z)) (name dir path : list Z) : res (option (list Z)) :=
  let* c := getA name 0 in
  if c =? 0 then Ok None
  else
    let* h := HasDir name in
    let fuel := S (S (match sp with Some s => length s | None => 1%nat end)) in
    if h then
      let* dir := setA dir 0 0 in
      let* path := COPY name path in
      old_loop fuel opens home sp name 0 dir path
    else
      let* (pos, dir) := ScanPath home sp 0 dir in
      let* path := MakeFileName dir name path in
      let* (pos, dir) := ScanPath home sp pos dir in
      old_loop fuel opens home sp name pos dir path.
