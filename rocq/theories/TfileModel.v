(** Texts on files: src/runtime/Texts.Mod 718-868 (Load0, Load, Open, Store) and 870-877 (Close).
    The ring of runs is the list of its runs (C32 is about the ring).  A file is the list of its bytes; writing happens at its end, and a fixup slot is
    overwritten afterwards; reading at the end of a file gives 0 (Files.Mod 398-414).  The number formats are those of C18 with 32-bit LONGINT, strings those of C19.
    Simplifications: sums of positions and lengths do not overflow; a number read across the end of a file has 0 for the missing bytes (in the code: whatever was
    in the buffer); entries of the tables that were never set are empty names. *)
From Verif Require Import Base.

(** A font is an object with a name; NIL is None. *)
Definition font := option (nat * list Z).
(** A piece: the bytes of its file from org on, and ascii.  An element: what its handler answers to IdentifyMsg (None: an empty module name), its size,
    and the bytes its handler writes. *)
Inductive content := Piece (bytes : list Z) (ascii : bool) | Elem (iden : option (list Z * list Z)) (w h : Z) (data : list Z).
Record run := { fnt : font; col : Z; voff : Z; body : content }.

(** Files.Mod 672-677, 613-617, 638-642, 704-709. *)
Definition LInt (x : Z) : list Z := [x mod 256; x / 256 mod 256; x / 65536 mod 256; x / 16777216 mod 256].
Definition rd (s : list Z) : Z * list Z := match s with [] => (0, []) | b :: s => (b, s) end.
Definition ReadLInt (s : list Z) : Z * list Z :=
  let '(a, s) := rd s in let '(b, s) := rd s in let '(c, s) := rd s in let '(d, s) := rd s in
  (wrap_s 32 (a + b * 256 + c * 65536 + d * 16777216), s).
Definition ReadInt8 (s : list Z) : Z * list Z := let '(a, s) := rd s in (wrap_s 8 a, s).
Definition Str (x : list Z) : list Z := x ++ [0].
(** ReadString into an array of n characters: an index error if the string does not fit. *)
Fixpoint ReadString (n : nat) (s : list Z) : res (list Z * list Z) :=
  match n with
  | O => Trap (-2)
  | S n => let '(ch, s) := rd s in if ch =? 0 then Ok ([], s) else let* r := ReadString n s in Ok (ch :: fst r, snd r)
  end.
(** Writing over the bytes from position p on. *)
Definition over (f : list Z) (p : nat) (b : list Z) : list Z := firstn p f ++ b ++ skipn (p + length b) f.

(** The search loops of Texts.Mod 813 and 829: the number of the first equal entry, from 1. *)
Definition name_eqb (a b : list Z) : bool := if list_eq_dec Z.eq_dec a b then true else false.
Fixpoint index {A} (eq : A -> A -> bool) (l : list A) (x : A) : Z :=
  match l with [] => 1 | y :: l => if eq y x then 1 else 1 + index eq l x end.
Definition pair_eqb (a b : list Z * list Z) : bool := name_eqb (fst a) (fst b) && name_eqb (snd a) (snd b).
(** Texts.Mod 810-820 [StoreElem]; [mods] are the entries 1 to ecnt-1 of mods and procs, arrays of 64 names.  The handler writes [data]. *)
Definition StoreElem (f : list Z) (mods : list (list Z * list Z)) (id : list Z * list Z) (w h : Z) (data : list Z) : res (list Z * list (list Z * list Z)) :=
  let ecnt := Z.of_nat (length mods) + 1 in
  if ecnt >? 63 then Trap (-2)
  else
    let eno := index pair_eqb mods id in
    let r1 := length f in
    let f := f ++ LInt 0 ++ LInt 0 ++ LInt 0 ++ [eno] in
    let '(f, mods) := if eno =? ecnt then (f ++ Str (fst id) ++ Str (snd id), mods ++ [id]) else (f, mods) in
    let org := length f in
    let f := f ++ data in
    let span := Z.of_nat (length f) - Z.of_nat org in
    Ok (over f r1 (LInt (- span) ++ LInt w ++ LInt h), mods).
(** Texts.Mod 834-837: the pieces with the same looks; fonts are compared as pointers. *)
Definition font_eqb (a b : font) : bool := match a, b with Some (i, _), Some (j, _) => (i =? j)%nat | None, None => true | _, _ => false end.
Fixpoint gather (u : run) (rlen : Z) (l : list run) : Z * list run :=
  match l with
  | un :: l' =>
    match body un with
    | Piece b _ => if font_eqb (fnt un) (fnt u) && (col un =? col u) && (voff un =? voff u) then gather u (rlen + Z.of_nat (length b)) l' else (rlen, l)
    | _ => (rlen, l)
    end
  | [] => (rlen, l)
  end.
(** Texts.Mod 828-832: the looks of a run; [fnts] are the names of the entries 1 to fcnt-1 of fnts, an array of 32. *)
Definition looks (f : list Z) (fnts : list (list Z)) (u : run) : res (list Z * list (list Z)) :=
  let fcnt := Z.of_nat (length fnts) + 1 in
  if fcnt >? 31 then Trap (-2)
  else match fnt u with
  | None => Trap (-1)
  | Some (_, name) =>
    let fno := index name_eqb fnts name in
    let f := f ++ [fno] in
    let '(f, fnts) := if fno =? fcnt then (f ++ Str name, fnts ++ [name]) else (f, fnts) in
    Ok (f ++ [col u mod 256; voff u mod 256], fnts)
  end.
(** Texts.Mod 825-842: the header; the result is the file and delta. *)
Fixpoint header (fuel : nat) (f : list Z) (fnts : list (list Z)) (mods : list (list Z * list Z)) (delta : Z) (l : list run) : res (list Z * Z) :=
  match l with
  | [] => Ok (f, delta)
  | u :: l' =>
    match fuel with
    | O => Fuel
    | S fuel =>
      match body u with
      | Piece b _ =>
        let* r := looks f fnts u in
        let '(rlen, l') := gather u (Z.of_nat (length b)) l' in
        header fuel (fst r ++ LInt rlen) (snd r) mods delta l'
      | Elem (Some id) w h data =>
        let* r := looks f fnts u in
        let* q := StoreElem (fst r) mods id w h data in
        header fuel (fst q) (snd r) (snd q) delta l'
      | Elem None _ _ _ => header fuel f fnts mods (delta + 1) l'
      end
    end
  end.
(** Texts.Mod 846-865: the characters. *)
Definition chars (u : run) : list Z :=
  match body u with
  | Piece b true => map (fun ch => if ch =? 10 then 13 else ch) b
  | Piece b false => b
  | Elem (Some _) _ _ _ => [28]
  | Elem None _ _ _ => []
  end.
(** Texts.Mod 802-868 [Store] at the end of the file f, for a text of length len. *)
Definition Store (f : list Z) (len : Z) (l : list run) : res (list Z) :=
  let org := length f in
  let* r := header (S (length l)) (f ++ LInt 0) [] [] 0 l in
  let '(f, delta) := r in
  let f := f ++ [0] ++ LInt (len - delta) in
  let hlen := Z.of_nat (length f) - Z.of_nat org + 2 in
  let f := over f org (LInt hlen) in
  Ok (f ++ flat_map chars l).
(** Texts.Mod 870-877 [Close]: the contents of the file it registers. *)
Definition Close (len : Z) (l : list run) : res (list Z) := Store [240; 1] len l.

(** Texts.Mod 728-749 [LoadElem] for elements whose module is not there: they become aliens, which keep the bytes of the file (HandleAlien, Texts.Mod 213-234).
    [mods] are the names read so far; s is the rest of the file. *)
Definition LoadElem (s : list Z) (span : Z) (ecnt : Z) (mods : Z -> list Z * list Z) : res (content * list Z * Z * (Z -> list Z * list Z)) :=
  let '(ew, s) := ReadLInt s in
  let '(eh, s) := ReadLInt s in
  let '(eno, s) := ReadInt8 s in
  let* r :=
    if eno >? ecnt then
      if eno >? 63 then Trap (-2)
      else let* m := ReadString 32 s in let* p := ReadString 32 (snd m) in
           Ok (snd p, eno, fun i => if i =? eno then (fst m, fst p) else mods i)
    else Ok (s, ecnt, mods) in
  let '(s, ecnt, mods) := r in
  if eno <? 0 then Trap (-2)
  else Ok (Elem (Some (mods eno)) ew eh (firstn (Z.to_nat span) s), skipn (Z.to_nat span) s, ecnt, mods).
(** Texts.Mod 756-765: the loop of Load0 over the header. *)
Fixpoint load (fuel : nat) (f s : list Z) (pos fcnt ecnt : Z) (mods : Z -> list Z * list Z) : res (list run * list Z) :=
  let '(fno, s) := ReadInt8 s in
  if fno =? 0 then Ok ([], s)
  else match fuel with
  | O => Fuel
  | S fuel =>
    let* r :=
      if fno >? fcnt then
        let* n := ReadString 32 s in
        if fno >? 31 then Trap (-2) else Ok (snd n, fno)
      else Ok (s, fcnt) in
    let '(s, fcnt) := r in
    let '(c, s) := ReadInt8 s in
    let '(v, s) := ReadInt8 s in
    let '(plen, s) := ReadLInt s in
    if plen >? 0 then
      let un := {| fnt := None; col := c; voff := v; body := Piece (firstn (Z.to_nat plen) (skipn (Z.to_nat pos) f)) false |} in
      let* q := load fuel f s (pos + plen) fcnt ecnt mods in Ok (un :: fst q, snd q)
    else
      let* e := LoadElem s (- plen) ecnt mods in
      let '(b, s, ecnt, mods) := e in
      let* q := load fuel f s (pos + 1) fcnt ecnt mods in Ok ({| fnt := None; col := c; voff := v; body := b |} :: fst q, snd q)
  end.
(** Texts.Mod 750-767 [Load0] from position at: the runs, the length of the text and the position of the rider afterwards. *)
Definition Load0 (f : list Z) (at_ : nat) : res (list run * Z * Z) :=
  let s := skipn at_ f in
  let '(hlen, s) := ReadLInt s in
  let org := Z.of_nat at_ - 2 + hlen in
  let* r := load (length f) f s org 0 0 (fun _ => ([], [])) in
  let '(l, s) := r in
  let '(len, s) := ReadLInt s in
  Ok (l, len, Z.min (Z.of_nat (length f)) (Z.of_nat (length f) - Z.of_nat (length s) + len)).
(** Texts.Mod 769-776 [Load]. *)
Definition Load (f : list Z) (at_ : nat) : res (list run * Z * Z) :=
  let '(a, s) := rd (skipn at_ f) in
  let '(b, s) := rd s in
  if wrap_s 16 (a + b * 256) =? -4095 then Load0 f (Nat.min (at_ + 2) (length f)) else Load0 f at_.
(** Texts.Mod 778-800 [Open], for files that are no documents of System 3. *)
Definition Open (f : list Z) : res (list run * Z) :=
  let '(tag, s) := rd f in
  let '(version, _) := rd s in
  if (tag =? 240) || ((tag =? 1) && (version =? 240)) then let* r := Load0 f (Nat.min 2 (length f)) in Ok (fst (fst r), snd (fst r))
  else
    let len := Z.of_nat (length f) in
    Ok ((if len >? 0 then [{| fnt := Some (0%nat, [83; 121; 110; 116; 97; 120; 49; 48; 46; 83; 99; 110; 46; 70; 110; 116]); col := 15; voff := 0; body := Piece f true |}] else []), len).
