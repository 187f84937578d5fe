(** Model of the buffered file access of src/runtime/Files.Mod: one file, any number of riders on it.
    Simplifications: LONGINT positions are unbounded (the file length must stay below MAX(LONGINT) - 4096); the system calls of Platform
    transfer everything they are asked for and succeed; names and identities are left out here (see RegisterModel). *)
From Verif Require Import Base ArrZ.

(** Files.Mod 7-8. *)
Definition BufSize : Z := 4096.
Definition NumBufs : nat := 4.

(** Overwrite [xs] into [d] at position [p], extending d as needed (zero-filled gap): the effect of the system call
    write(2) on the file content, and of SYSTEM.MOVE into an array when the range lies inside it. *)
Definition put (d : list Z) (p : Z) (xs : list Z) : list Z :=
  match xs with
  | [] => d
  | _ => map (fun k => let j := Z.of_nat k in if (p <=? j) && (j <? p + zlen xs) then ix xs (j - p) else ix d j)
             (seq 0 (Z.to_nat (Z.max (zlen d) (p + zlen xs))))
  end.
(** The [n] elements of [d] from position [p]. *)
Definition sub (d : list Z) (p n : Z) : list Z := firstn (Z.to_nat n) (skipn (Z.to_nat p) d).

(** Files.Mod 39-45 [BufDesc] (the back pointer f is implicit). *)
Record buffer := mkbuf { b_chg : bool; b_org : Z; b_size : Z; b_data : list Z }.
Definition buf0 : buffer := mkbuf false (-1) 0 (repeat 0 (Z.to_nat BufSize)).

(** The changing system calls a file makes on its OS file (Create, Flush, Purge). *)
Inductive sysop := SCreate | SWrite (p : Z) (xs : list Z) | STruncate.

(** Files.Mod 26-37 [FileDesc].  [heap]: all buffers ever allocated for this file, a Buffer pointer is an index into it;
    [slots]: f.bufs; [fd]: whether an OS file exists (f.fd # NoDesc); [disk], [dpos]: content and offset of the OS file;
    [log]: the system calls made so far, a ghost field that no operation reads (file names and states: RegisterModel). *)
Record file := mkfile {
  heap : list buffer; slots : list (option nat); flen : Z; fpos : Z; swapper : Z;
  fd : bool; disk : list Z; dpos : Z; log : list sysop }.
(** Files.Mod 47-53 [Rider]. *)
Record rider := mkrider { r_buf : nat; r_org : Z; r_offset : Z; r_eof : bool; r_res : Z }.

Definition bget (f : file) (b : nat) : buffer := nth b (heap f) buf0.
Definition bset (f : file) (b : nat) (x : buffer) : file :=
  mkfile (set_nth b x (heap f)) (slots f) (flen f) (fpos f) (swapper f) (fd f) (disk f) (dpos f) (log f).
Definition with_len (f : file) (n : Z) : file :=
  mkfile (heap f) (slots f) n (fpos f) (swapper f) (fd f) (disk f) (dpos f) (log f).

(** Files.Mod 151-191 [Create]: make sure there is an OS file; a new one is empty. *)
Definition Create (f : file) : file :=
  if fd f then f else mkfile (heap f) (slots f) (flen f) 0 (swapper f) true [] 0 (log f ++ [SCreate]).

(** Platform.Seek, Platform.Write, Platform.ReadBuf (Platformunix.Mod 339-376) on the OS file. *)
Definition os_seek (f : file) (p : Z) : file :=
  mkfile (heap f) (slots f) (flen f) (fpos f) (swapper f) (fd f) (disk f) p (log f).
Definition os_write (f : file) (xs : list Z) : file :=
  mkfile (heap f) (slots f) (flen f) (fpos f) (swapper f) (fd f) (put (disk f) (dpos f) xs) (dpos f + zlen xs)
         (log f ++ [SWrite (dpos f) xs]).
Definition os_read (f : file) (n : Z) : list Z * file :=
  let xs := sub (disk f) (dpos f) n in
  (xs, mkfile (heap f) (slots f) (flen f) (fpos f) (swapper f) (fd f) (disk f) (dpos f + zlen xs) (log f)).
Definition with_pos (f : file) (p : Z) : file :=
  mkfile (heap f) (slots f) (flen f) p (swapper f) (fd f) (disk f) (dpos f) (log f).

(** Files.Mod 193-210 [Flush(buf)]. *)
Definition Flush (f : file) (b : nat) : file :=
  let x := bget f b in
  if b_chg x then
    let f := Create f in
    let f := if negb (b_org x =? fpos f) then os_seek f (b_org x) else f in
    let f := os_write f (firstn (Z.to_nat (b_size x)) (b_data x)) in
    let f := with_pos f (b_org x + b_size x) in
    bset f b (mkbuf false (b_org x) (b_size x) (b_data x))
  else f.

(** Files.Mod 370: [WHILE (i < NumBufs) & (f.bufs[i] # NIL) & (org # f.bufs[i].org) DO INC(i) END]. *)
Fixpoint find_slot (h : list buffer) (sl : list (option nat)) (org : Z) : nat :=
  match sl with
  | [] => O
  | None :: _ => O
  | Some b :: sl' => if org =? b_org (nth b h buf0) then O else S (find_slot h sl' org)
  end.

(** Files.Mod 371-380: the buffer for block [org]: existing, newly allocated, or the next victim, flushed. *)
Definition pick (f : file) (org : Z) : file * nat :=
  let i := find_slot (heap f) (slots f) org in
  if (i <? NumBufs)%nat then
    match nth i (slots f) None with
    | None =>
        let b := length (heap f) in
        (mkfile (heap f ++ [buf0]) (set_nth i (Some b) (slots f)) (flen f) (fpos f) (swapper f) (fd f) (disk f) (dpos f) (log f), b)
    | Some b => (f, b)
    end
  else
    let s := (swapper f + 1) mod (Z.of_nat NumBufs) in
    let f := mkfile (heap f) (slots f) (flen f) (fpos f) s (fd f) (disk f) (dpos f) (log f) in
    match nth (Z.to_nat s) (slots f) None with
    | Some b => (Flush f b, b)
    | None => (f, O) (* not reachable: all slots are in use here *)
    end.

(** Files.Mod 381-391: load the block unless the buffer already holds it. *)
Definition load (f : file) (b : nat) (org : Z) : file :=
  let x := bget f b in
  if b_org x =? org then f else
  if org =? flen f then bset f b (mkbuf false org 0 (b_data x))
  else
    let f := Create f in
    let f := if negb (fpos f =? org) then os_seek f org else f in
    let '(xs, f) := os_read f BufSize in
    let f := with_pos f (org + zlen xs) in
    bset f b (mkbuf false org (zlen xs) (put (b_data x) 0 xs)).

(** Files.Mod 364-396 [Set(r, f, pos)] for f # NIL. *)
Definition Set_ (f : file) (pos : Z) : file * rider :=
  let pos := if pos >? flen f then flen f else if pos <? 0 then 0 else pos in
  let offset := pos mod BufSize in
  let org := pos - offset in
  let '(f, b) := pick f org in
  let f := load f b org in
  (f, mkrider b org offset false 0).

(** Files.Mod 76-79: a failed Assert stops the program. *)
Definition Assert (c : bool) : res unit := if c then Ok tt else Trap 0.

(** Files.Mod 358-362 [Pos]. *)
Definition Pos (r : rider) : res Z := let* _ := Assert (r_offset r <=? BufSize) in Ok (r_org r + r_offset r).

(** Files.Mod 398-414 [Read(r, x)]: returns the byte stored into x. *)
Definition Read (f : file) (r : rider) : res (Z * file * rider) :=
  let '(f, r) := if negb (r_org r =? b_org (bget f (r_buf r))) then Set_ f (r_org r + r_offset r) else (f, r) in
  let buf := bget f (r_buf r) in
  let offset := r_offset r in
  let* _ := Assert (offset <=? b_size buf) in
  if offset <? b_size buf then
    Ok (ix (b_data buf) offset, f, mkrider (r_buf r) (r_org r) (offset + 1) (r_eof r) (r_res r))
  else if r_org r + offset <? flen f then
    let '(f, r) := Set_ f (r_org r + offset) in
    Ok (ix (b_data (bget f (r_buf r))) 0, f, mkrider (r_buf r) (r_org r) 1 (r_eof r) (r_res r))
  else Ok (0, f, mkrider (r_buf r) (r_org r) (r_offset r) true (r_res r)).

(** Files.Mod 422-443 [ReadBytes(r, x, n)]: the loop; returns the bytes moved to x[0..]. *)
Fixpoint readbytes_loop (fuel : nat) (f : file) (r : rider) (acc : list Z) (n : Z) : res (list Z * file * rider) :=
  match fuel with
  | O => Fuel
  | S k =>
      if n >? 0 then
        let '(f, r) := if negb (r_org r =? b_org (bget f (r_buf r))) || (r_offset r >=? BufSize)
                       then Set_ f (r_org r + r_offset r) else (f, r) in
        let buf := bget f (r_buf r) in
        let offset := r_offset r in
        let rest := b_size buf - offset in
        if rest =? 0 then Ok (acc, f, mkrider (r_buf r) (r_org r) offset true n)
        else
          let mn := if n >? rest then rest else n in
          let xs := sub (b_data buf) offset mn in
          let offset := offset + mn in
          let* _ := Assert (offset <=? BufSize) in
          readbytes_loop k f (mkrider (r_buf r) (r_org r) offset (r_eof r) (r_res r)) (acc ++ xs) (n - mn)
      else Ok (acc, f, mkrider (r_buf r) (r_org r) (r_offset r) false 0)
  end.
(** [lx] is LEN(x). *)
Definition ReadBytes (f : file) (r : rider) (lx n : Z) : res (list Z * file * rider) :=
  if n >? lx then Trap (-1) else readbytes_loop (S (Z.to_nat n)) f r [] n.

(** Files.Mod 447-463 [Write(r, x)]. *)
Definition Write (f : file) (r : rider) (x : Z) : res (file * rider) :=
  let* _ := Assert (r_offset r <=? BufSize) in
  let '(f, r) := if negb (r_org r =? b_org (bget f (r_buf r))) || (r_offset r >=? BufSize)
                 then Set_ f (r_org r + r_offset r) else (f, r) in
  let buf := bget f (r_buf r) in
  let offset := r_offset r in
  let* _ := Assert (offset <? BufSize) in
  let data := put (b_data buf) offset [x] in
  let f := if offset =? b_size buf
           then with_len (bset f (r_buf r) (mkbuf true (b_org buf) (b_size buf + 1) data)) (flen f + 1)
           else bset f (r_buf r) (mkbuf true (b_org buf) (b_size buf) data) in
  Ok (f, mkrider (r_buf r) (r_org r) (offset + 1) (r_eof r) 0).

(** Files.Mod 465-486 [WriteBytes(r, x, n)]; [xs] is what is left of x[0..n-1]. *)
Fixpoint writebytes_loop (fuel : nat) (f : file) (r : rider) (xs : list Z) : res (file * rider) :=
  match fuel with
  | O => Fuel
  | S k =>
      if zlen xs >? 0 then
        let* _ := Assert (r_offset r <=? BufSize) in
        let '(f, r) := if negb (r_org r =? b_org (bget f (r_buf r))) || (r_offset r >=? BufSize)
                       then Set_ f (r_org r + r_offset r) else (f, r) in
        let buf := bget f (r_buf r) in
        let offset := r_offset r in
        let* _ := Assert (offset <=? BufSize) in
        let rest := BufSize - offset in
        let mn := if zlen xs >? rest then rest else zlen xs in
        let data := put (b_data buf) offset (firstn (Z.to_nat mn) xs) in
        let offset := offset + mn in
        let* _ := Assert (offset <=? BufSize) in
        let f := if offset >? b_size buf
                 then with_len (bset f (r_buf r) (mkbuf true (b_org buf) offset data)) (flen f + (offset - b_size buf))
                 else bset f (r_buf r) (mkbuf true (b_org buf) (b_size buf) data) in
        writebytes_loop k f (mkrider (r_buf r) (r_org r) offset (r_eof r) (r_res r)) (skipn (Z.to_nat mn) xs)
      else Ok (f, mkrider (r_buf r) (r_org r) (r_offset r) (r_eof r) 0)
  end.
Definition WriteBytes (f : file) (r : rider) (x : list Z) (n : Z) : res (file * rider) :=
  if n >? zlen x then Trap (-1) else writebytes_loop (S (length x)) f r (firstn (Z.to_nat n) x).

(** Files.Mod 335-349 [Purge]. *)
Fixpoint detach (h : list buffer) (sl : list (option nat)) : list buffer :=
  match sl with
  | [] => h
  | None :: sl' => detach h sl'
  | Some b :: sl' =>
      let x := nth b h buf0 in detach (set_nth b (mkbuf (b_chg x) (-1) (b_size x) (b_data x)) h) sl'
  end.
Definition Purge (f : file) : file :=
  mkfile (detach (heap f) (slots f)) (repeat None NumBufs) 0 0 (-1) (fd f)
         (if fd f then [] else disk f) (if fd f then 0 else dpos f) (if fd f then log f ++ [STruncate] else log f).

(** Files.Mod 212-220 [Close] of a file that is open or has a register name: create and flush every buffer. *)
Fixpoint flush_all (f : file) (sl : list (option nat)) : file :=
  match sl with
  | Some b :: sl' => flush_all (Flush f b) sl'
  | _ => f
  end.
Definition Close (f : file) : file := let f := Create f in flush_all f (slots f).

(** Files.Mod 225-231 [New] and, for a file whose OS file holds [c], the tail of [Old] (315-321). *)
Definition New : file := mkfile [] (repeat None NumBufs) 0 0 (-1) false [] 0 [].
Definition Old (c : list Z) : file := mkfile [] (repeat None NumBufs) (zlen c) 0 (-1) true c 0 [].

(** A program using one file: the operations on it through riders 0, 1, ... *)
Inductive op :=
| OSet (i : nat) (pos : Z) | ORead (i : nat) | OReadBytes (i : nat) (lx n : Z)
| OWrite (i : nat) (x : Z) | OWriteBytes (i : nat) (x : list Z) (n : Z)
| OPos (i : nat) | OLength | OPurge | OClose.
(** What a caller can see: values, and the eof and res fields of the rider used. *)
Inductive obs := VUnit | VInt (z : Z) | VByte (z : Z) (eof : bool) | VBytes (l : list Z) (eof : bool) (res : Z).

Definition state : Type := file * list rider.
Definition rget (rs : list rider) (i : nat) : res rider := match nth_error rs i with Some r => Ok r | None => UB end.
Definition step (s : state) (o : op) : res (state * obs) :=
  let '(f, rs) := s in
  match o with
  | OSet i pos => let* _ := rget rs i in let '(f, r) := Set_ f pos in Ok ((f, set_nth i r rs), VUnit)
  | ORead i => let* r := rget rs i in let* y := Read f r in let '(x, f, r) := y in Ok ((f, set_nth i r rs), VByte x (r_eof r))
  | OReadBytes i lx n => let* r := rget rs i in let* y := ReadBytes f r lx n in
      let '(xs, f, r) := y in Ok ((f, set_nth i r rs), VBytes xs (r_eof r) (r_res r))
  | OWrite i x => let* r := rget rs i in let* y := Write f r x in let '(f, r) := y in Ok ((f, set_nth i r rs), VUnit)
  | OWriteBytes i x n => let* r := rget rs i in let* y := WriteBytes f r x n in
      let '(f, r) := y in Ok ((f, set_nth i r rs), VUnit)
  | OPos i => let* r := rget rs i in let* p := Pos r in Ok ((f, rs), VInt p)
  | OLength => Ok ((f, rs), VInt (flen f))
  | OPurge => Ok ((Purge f, rs), VUnit)
  | OClose => Ok ((Close f, rs), VUnit)
  end.
Fixpoint run (s : state) (os : list op) : res (state * list obs) :=
  match os with
  | [] => Ok (s, [])
  | o :: os => let* y := step s o in let '(s, v) := y in let* z := run s os in let '(s, vs) := z in Ok (s, v :: vs)
  end.
(** [n] riders, each set to position 0. *)
Fixpoint open_riders (f : file) (n : nat) : file * list rider :=
  match n with
  | O => (f, [])
  | S k => let '(f, r) := Set_ f 0 in let '(f, rs) := open_riders f k in (f, r :: rs)
  end.
