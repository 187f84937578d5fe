(** File names: src/library/ooc/oocFilenames.Mod, oocRts.Mod GetUserHome and oocStrings2.Mod AppendChar, PosChar, on the models of oocStrings (OstrModel.v) and of COPY (CStrModel.v).
    A VAR parameter is returned; INTEGER variables are unbounded, as in OstrModel.v. *)
From Verif Require Import Base ArrZ OstrModel.
From Verif Require CStrModel.
Definition COPY := CStrModel.COPY.
(** oocRts.Mod 4. *)
Definition pathSeperator : Z := 47.

(** oocFilenames.Mod 10-25 [LocateCharLast]. *)
Fixpoint locate_loop (f : nat) (str : list Z) (ch pos : Z) : res Z :=
  match f with
  | O => Fuel
  | S f => if 0 <=? pos then let* c := getA str pos in if c =? ch then Ok pos else locate_loop f str ch (pos - 1) else Ok (-1)
  end.
Definition LocateCharLast (str : list Z) (ch : Z) : res Z := let* n := Length str in locate_loop (S (S (length str))) str ch n.
(** oocFilenames.Mod 27-59 [SplitRChar]: str1 and str2. *)
Definition SplitRChar (str str1 str2 : list Z) (ch : Z) : res (list Z * list Z) :=
  let* len := Length str in
  let* pos := LocateCharLast str ch in
  let* str2 := COPY str str2 in
  if 0 <=? pos then
    let* str1 := COPY str str1 in
    let pos := pos + 1 in
    let* str2 := Delete str2 0 pos in
    let* str1 := Delete str1 pos (len - pos) in
    Ok (str1, str2)
  else let* str1 := COPY [0] str1 in Ok (str1, str2).
(** oocFilenames.Mod 65-78 [GetPath]: path and file. *)
Definition GetPath (full path file : list Z) : res (list Z * list Z) := SplitRChar full path file pathSeperator.
(** oocFilenames.Mod 80-90 [GetExt]: file and ext. *)
Definition GetExt (full file ext : list Z) : res (list Z * list Z) :=
  let* a := LocateCharLast full pathSeperator in
  let* b := LocateCharLast full 46 in
  if a <? b then
    let* r := SplitRChar full file ext 46 in
    let (file, ext) := (r : list Z * list Z) in
    let* n := Length file in
    let* file := Delete file (n - 1) 1 in
    Ok (file, ext)
  else let* file := COPY full file in let* ext := COPY [0] ext in Ok (file, ext).
(** oocFilenames.Mod 92-104 [GetFile]; [dummy] is the uninitialised local array of 256 characters. *)
Definition GetFile (dummy full file : list Z) : res (list Z) :=
  let* r := GetPath full dummy file in
  let* q := GetExt (snd r) (snd r) (fst r) in
  Ok (fst q).
(** oocStrings2.Mod 8-18 [AppendChar]. *)
Definition AppendChar (ch : Z) (dst : list Z) : res (list Z) :=
  let* len := Length dst in
  if len <? zlen dst - 1 then let* dst := setA dst len ch in setA dst (len + 1) 0 else Ok dst.
(** oocFilenames.Mod 111-125 [AddExt]. *)
Definition AddExt (full file ext : list Z) : res (list Z) :=
  let* full := COPY file full in
  let* c := getA ext 0 in
  if negb (c =? 0) then let* full := AppendChar 46 full in Append ext full else Ok full.
(** oocFilenames.Mod 127-144 [AddPath]. *)
Definition AddPath (full path file : list Z) : res (list Z) :=
  let* full := COPY file full in
  let* c := getA path 0 in
  if negb (c =? 0) then
    let* n := Length path in
    let* e := getA path (n - 1) in
    let* full := (if negb (e =? pathSeperator) then Insert [pathSeperator; 0] 0 full else Ok full) in
    Insert path 0 full
  else Ok full.
(** oocFilenames.Mod 146-156 [BuildFilename]. *)
Definition BuildFilename (full path file ext : list Z) : res (list Z) :=
  let* full := AddExt full file ext in AddPath full path full.
(** oocStrings2.Mod 32-50 [PosChar]. *)
Fixpoint pos_loop (f : nat) (ch : Z) (str : list Z) (i : Z) : res Z :=
  match f with
  | O => Fuel
  | S f => let* c := getA str i in if c =? ch then Ok i else if c =? 0 then Ok (-1) else pos_loop f ch str (i + 1)
  end.
Definition PosChar (ch : Z) (str : list Z) : res Z := pos_loop (S (length str)) ch str 0.
(** oocRts.Mod 22-57 [GetUserHome]: [lines] are the lines of the file of users as ReadLine delivers them (Files.Mod 644-651; the last one is empty if the file ends with a line feed),
    [HOME] is the environment variable, [junk] the initial value of the local variables p, p1; lines are shorter than 1024 characters. *)
Fixpoint find_user (user str1 : list Z) (lines : list (list Z)) (str : list Z) : res (bool * list Z) :=
  match lines with
  | [] => Ok (false, str)
  | str :: lines =>
    let* str1 := Extract str 0 (zlen user - 1) str1 in
    let* found := Equal user str1 in
    if (found : bool) then Ok (true, str) else find_user user str1 lines str
  end.
Definition GetUserHome (junk : Z) (lines : list (list Z)) (HOME home user : list Z) : res (list Z) :=
  let* r := find_user user (repeat 0 1024) lines [0] in
  let (found, str) := (r : bool * list Z) in
  if found then
    let* a := FindNext [58; 0] str (zlen user) junk in
    let* b := FindNext [58; 0] str (snd a + 1) (snd a) in
    let* c := FindNext [58; 0] str (snd b + 1) (snd b) in
    let* d := FindNext [58; 0] str (snd c + 1) (snd c) in
    let* e := FindNext [58; 0] str (snd d + 1) junk in
    Extract str (snd d + 1) (snd e - snd d - 1) home
  else COPY HOME home.
(** oocFilenames.Mod 158-185 [ExpandPath]. *)
Definition ExpandPath (junk : Z) (lines : list (list Z)) (HOME full path : list Z) : res (list Z) :=
  let* full := COPY path full in
  let* c := getA path 0 in
  if c =? 126 then
    let* posSep := PosChar pathSeperator path in
    let* len := Length path in
    let (posSep, posSuffix) := (if posSep <? 0 then (len, len) else (posSep, posSep + 1) : Z * Z) in
    let* suffix := Extract path posSuffix (len - posSuffix) (repeat 0 256) in
    let* username := Extract path 1 (posSep - 1) (repeat 0 32) in
    let* userpath := GetUserHome junk lines HOME (repeat 0 256) username in
    let* u := getA userpath 0 in
    if negb (u =? 0) then AddPath full userpath suffix else Ok full
  else Ok full.
