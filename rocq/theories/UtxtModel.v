(** Dynamic texts: src/library/ulm/ulmTexts.Mod, the interface procedures that Streams calls for an unbuffered stream.
    The chain of buffers head .. tail is the list of their contents; a reference to a buffer is its index in the chain.  Following NIL is undefined.
    Count is unbounded; error events are left out. *)
From Verif Require Import Base ArrZ.
(** ulmTexts.Mod 45. *)
Definition bufsize : Z := 512.
(** ulmTexts.Mod 59-66 TextRec. *)
Record text := { pos : Z; len : Z; cnt : Z; chain : list (list Z) }.
(** ulmTexts.Mod 287-299 [Open]. *)
Definition Open : text := {| pos := 0; len := 0; cnt := 0; chain := [] |}.
(** ulmTexts.Mod 114-135 [Access]; NEW clears the buffer. *)
Definition Access (t : text) : res (Z * text) :=
  if bufsize * cnt t <=? pos t then Ok (zlen (chain t), {| pos := pos t; len := len t; cnt := cnt t + 1; chain := chain t ++ [repeat 0 512] |})
  else if pos t / bufsize <? zlen (chain t) then Ok (pos t / bufsize, t) else UB.
(** buffer.cont[index], reading and assigning; a text keeps its other fields. *)
Definition buffer (t : text) (b : Z) : list Z := nth (Z.to_nat b) (chain t) [].
Definition put (t : text) (b index x : Z) : res text :=
  let* c := setA (buffer t b) index x in Ok {| pos := pos t; len := len t; cnt := cnt t; chain := set_nth (Z.to_nat b) c (chain t) |}.
Definition setpos (t : text) (p : Z) : text := {| pos := p; len := len t; cnt := cnt t; chain := chain t |}.
Definition setlen (t : text) (l : Z) : text := {| pos := pos t; len := l; cnt := cnt t; chain := chain t |}.
(** ulmTexts.Mod 153-160, the loop of BufRead; [n] rounds are left. *)
Fixpoint read_loop (n : nat) (t : text) (b index i : Z) (buf : list Z) : res (text * list Z) :=
  match n with
  | O => Ok (t, buf)
  | S n =>
    let* x := getA (buffer t b) index in
    let* buf := setA buf i x in
    let t := setpos t (pos t + 1) in
    let index := index + 1 in
    if index mod bufsize =? 0 then let* r := Access t in let (b, t) := (r : Z * text) in read_loop n t b 0 (i + 1) buf
    else read_loop n t b index (i + 1) buf
  end.
(** ulmTexts.Mod 139-164 [BufRead]: the number of bytes, the array and the text. *)
Definition BufRead (t : text) (buf : list Z) (off n : Z) : res (Z * list Z * text) :=
  let count := if len t - pos t <? n then len t - pos t else n in
  if 0 <? count then
    let* r := Access t in let (b, t) := (r : Z * text) in
    let* q := read_loop (Z.to_nat count) t b (pos t mod bufsize) off buf in let (t, buf) := (q : text * list Z) in
    Ok (count, buf, t)
  else Ok (count, buf, t).
(** ulmTexts.Mod 177-186, the loop of BufWrite. *)
Fixpoint write_loop (n : nat) (t : text) (b index i : Z) (buf : list Z) : res text :=
  match n with
  | O => Ok t
  | S n =>
    let* x := getA buf i in
    let* t := put t b index x in
    let t := setpos t (pos t + 1) in
    let t := if len t <? pos t then setlen t (pos t) else t in
    let index := index + 1 in
    if index mod bufsize =? 0 then let* r := Access t in let (b, t) := (r : Z * text) in write_loop n t b 0 (i + 1) buf
    else write_loop n t b index (i + 1) buf
  end.
(** ulmTexts.Mod 166-190 [BufWrite]. *)
Definition BufWrite (t : text) (buf : list Z) (off n : Z) : res (Z * text) :=
  if 0 <? n then
    let* r := Access t in let (b, t) := (r : Z * text) in
    let* t := write_loop (Z.to_nat n) t b (pos t mod bufsize) off buf in Ok (n, t)
  else Ok (n, t).
(** ulmTexts.Mod 192-206 [Read]; None is FALSE. *)
Definition Read (t : text) : res (option Z * text) :=
  if pos t <? len t then
    let* r := Access t in let (b, t) := (r : Z * text) in
    let* x := getA (buffer t b) (pos t mod bufsize) in
    Ok (Some x, setpos t (pos t + 1))
  else Ok (None, t).
(** ulmTexts.Mod 208-221 [Write]. *)
Definition Write (t : text) (x : Z) : res text :=
  let* r := Access t in let (b, t) := (r : Z * text) in
  let* t := put t b (pos t mod bufsize) x in
  let t := setpos t (pos t + 1) in
  Ok (if len t <? pos t then setlen t (pos t) else t).
(** ulmTexts.Mod 223-242 [Seek]. *)
Inductive whence := fromStart | fromPos | fromEnd.
Definition Seek (t : text) (count : Z) (w : whence) : bool * text :=
  let p := match w with fromStart => count | fromPos => count + pos t | fromEnd => count + len t end in
  if (0 <=? p) && (p <=? len t) then (true, setpos t p) else (false, t).
(** ulmTexts.Mod 244-248 [Tell]. *)
Definition Tell (t : text) : Z := pos t.
(** ulmTexts.Mod 250-260 [Close]. *)
Definition Close (t : text) : text := if 0 <? cnt t then {| pos := 0; len := 0; cnt := 0; chain := [] |} else {| pos := 0; len := 0; cnt := cnt t; chain := chain t |}.
(** ulmTexts.Mod 262-285 [Trunc]. *)
Definition Trunc (t : text) (length : Z) : res (bool * text) :=
  if (0 <=? length) && (length <=? len t) && (pos t <=? length) then
    if length / bufsize <? len t / bufsize then
      let i := length / bufsize in
      if i <? zlen (chain t) then Ok (true, {| pos := pos t; len := length; cnt := i; chain := firstn (Z.to_nat i + 1) (chain t) |}) else UB
    else Ok (true, setlen t length)
  else Ok (false, t).
