(** Constant strings: src/library/ulm/ulmConstStrings.Mod.
    A domain's buffers form a chain, given as the list of their contents; a reference to a buffer is its index, [next] is the following index and NIL is an index behind the
    list (Trap 10 on use).  Only the tail's [free] is ever read, so only that is kept.  A string object is its index in [strs].  A stream that provides `len' bytes is the list of
    these bytes: the text and string streams themselves, NEW failing, and lengths beyond 2^31 are left out. *)
From Verif Require Import Base.

(** ulmConstStrings.Mod 54-56. *)
Definition tabsize : Z := 1031.
Definition bufsize : nat := 512.
(** ulmConstStrings.Mod 71-84, without the public copy of the length. *)
Record string := { slen : nat; hashval : Z; sbuf : nat; soffset : nat }.
(** ulmConstStrings.Mod 86-92; the chains of the buckets as lists of strings. *)
Record domain := { bufs : list (list Z); free : nat; strs : list string; bucket : Z -> list nat }.
Definition pos := (nat * nat)%type.
(** buf.buf[offset]. *)
Definition byte (B : list (list Z)) (p : pos) : res Z :=
  match nth_error B (fst p) with None => Trap 10 | Some x => match nth_error x (snd p) with Some c => Ok c | None => Trap (-2) end end.
(** INC(offset); IF offset >= bufsize THEN buf := buf.next; offset := 0 END: ulmConstStrings.Mod 174-177, 374-378, 429-433, 454-458, 472-476, 501-506; n bytes on. *)
Definition Step (p : pos) (n : nat) : pos := if (bufsize <=? snd p + n)%nat then (S (fst p), O) else (fst p, (snd p + n)%nat).

(** ulmConstStrings.Mod 122-152 [HashVal]: the unmodified value; the conversion to 32 bits wraps and shifting multiplies, as gcc and clang do. *)
Definition HashVal (c : list Z) : Z :=
  fold_left (fun h ch => wrap_s 32 (h * 16 + (if 32 <=? ch then ch - 32 else 255 - 32 + ch))) c (Z.of_nat (length c)).
(** ulmConstStrings.Mod 154-182 [Equal]. *)
Fixpoint equal_loop (B : list (list Z)) (p : pos) (s : list Z) : res bool :=
  match s with
  | [] => Ok true
  | ch :: s => let* x := byte B p in if negb (ch =? x) then Ok false else equal_loop B (Step p 1) s
  end.
Definition Equal (B : list (list Z)) (s : list Z) (str : string) : res bool :=
  if negb (length s =? slen str)%nat then Ok false else equal_loop B (sbuf str, soffset str) s.
(** ulmConstStrings.Mod 184-223 [Allocate] with its local [NewBuffer]. *)
Definition NewBuffer (B : list (list Z)) : list (list Z) := B ++ [repeat 0 bufsize].
Fixpoint alloc_loop (fuel : nat) (B : list (list Z)) (fr len : nat) : res (list (list Z) * nat) :=
  match fuel with
  | O => Fuel
  | S fuel => if (len =? 0)%nat then Ok (B, fr)
    else if (len <=? bufsize - fr)%nat then alloc_loop fuel B (fr + len) 0
    else alloc_loop fuel (NewBuffer B) 0 (len - (bufsize - fr))
  end.
Definition Allocate (B : list (list Z)) (fr len : nat) : res (list (list Z) * nat * pos) :=
  let new := match B with [] => true | _ => (fr =? bufsize)%nat end in
  let B := if new then NewBuffer B else B in
  let fr := if new then O else fr in
  let* r := alloc_loop (S (S len)) B fr len in
  Ok (r, ((length B - 1)%nat, fr)).
(** ulmConstStrings.Mod 225-248 [CopyString]; ReadPart puts the next bytes at an offset of a buffer. *)
Definition put_part (B : list (list Z)) (p : pos) (x : list Z) : res (list (list Z)) :=
  match nth_error B (fst p) with
  | None => Trap 10
  | Some y => Ok (firstn (fst p) B ++ [firstn (snd p) y ++ x ++ skipn (snd p + length x) y] ++ skipn (S (fst p)) B)
  end.
Fixpoint CopyString (fuel : nat) (B : list (list Z)) (p : pos) (s : list Z) : res (list (list Z)) :=
  match fuel with
  | O => Fuel
  | S fuel => if (length s =? 0)%nat then Ok B
    else let bytes := Nat.min (bufsize - snd p) (length s) in
      let* B := put_part B p (firstn bytes s) in
      CopyString fuel B (S (fst p), O) (skipn bytes s)
  end.
(** ulmConstStrings.Mod 250-280 [InternalCreateD], the whole of CreateD and CloseD apart from their streams (301-343): the object. *)
Fixpoint search (d : domain) (s : list Z) (chain : list nat) : res (option nat) :=
  match chain with
  | [] => Ok None
  | i :: chain => match nth_error (strs d) i with
    | None => Trap 10
    | Some str => let* e := Equal (bufs d) s str in if (e : bool) then Ok (Some i) else search d s chain
    end
  end.
Definition Create (d : domain) (s : list Z) : res (domain * nat) :=
  let orighashval := HashVal s in let h := orighashval mod tabsize in
  let* f := search d s (bucket d h) in
  match f with
  | Some i => Ok (d, i)
  | None =>
    let* r := Allocate (bufs d) (free d) (length s) in
    let '(B, fr, p) := r in
    let* B := CopyString (S (length s)) B p s in
    let i := length (strs d) in
    Ok ({| bufs := B; free := fr; strs := strs d ++ [{| slen := length s; hashval := orighashval; sbuf := fst p; soffset := snd p |}];
           bucket := fun k => if k =? h then i :: bucket d h else bucket d k |}, i)
  end.
(** ulmConstStrings.Mod 284-287 [CreateDomain]. *)
Definition CreateDomain : domain := {| bufs := []; free := 0; strs := []; bucket := fun _ => [] |}.

(** ulmConstStrings.Mod 360-404 [Compare]; [same] says that both are one object. *)
Fixpoint compare_loop (B1 : list (list Z)) (p1 : pos) (len1 : nat) (B2 : list (list Z)) (p2 : pos) (len2 : nat) : res Z :=
  match len1, len2 with
  | S l1, S l2 => let* c1 := byte B1 p1 in let* c2 := byte B2 p2 in
    if negb (c1 =? c2) then Ok (c1 - c2) else compare_loop B1 (Step p1 1) l1 B2 (Step p2 1) l2
  | _, _ => Ok (if (len1 <? len2)%nat then -1 else if (len2 <? len1)%nat then 1 else 0)
  end.
Definition Compare (same : bool) (B1 : list (list Z)) (s1 : string) (B2 : list (list Z)) (s2 : string) : res Z :=
  if same then Ok 0 else compare_loop B1 (sbuf s1, soffset s1) (slen s1) B2 (sbuf s2, soffset s2) (slen s2).
(** n bytes of one buffer. *)
Definition get_part (B : list (list Z)) (p : pos) (n : nat) : res (list Z) :=
  match nth_error B (fst p) with None => Trap 10 | Some x => Ok (firstn n (skipn (snd p) x)) end.
(** ulmConstStrings.Mod 406-436 [Write] to a stream that takes [room] more bytes: what it gets and s.count.  A failing WritePart has written and counted what there was room for. *)
Fixpoint Write (fuel : nat) (B : list (list Z)) (p : pos) (len room count : nat) : res (list Z * nat) :=
  match fuel with
  | O => Fuel
  | S fuel => if (len =? 0)%nat then Ok ([], count)
    else let bytes := Nat.min len (bufsize - snd p) in
      let* x := get_part B p bytes in
      if (room <? bytes)%nat then Ok (firstn room x, (count + room)%nat)
      else let* r := Write fuel B (Step p bytes) (len - bytes) (room - bytes) (count + bytes) in Ok (x ++ fst r, snd r)
  end.
Definition WriteTo (B : list (list Z)) (s : string) (room : nat) : res (list Z * nat) := Write (S (slen s)) B (sbuf s, soffset s) (slen s) room 0.
(** ulmConstStrings.Mod 438-461 [Extract] into an array of [cap] characters: the characters assigned. *)
Fixpoint extract_loop (B : list (list Z)) (p : pos) (len index cap : nat) : res (list Z) :=
  match len with
  | S l => if (index + 1 <? cap)%nat then let* c := byte B p in let* r := extract_loop B (Step p 1) l (S index) cap in Ok (c :: r)
    else if (index <? cap)%nat then Ok [0] else Trap (-2)
  | O => if (index <? cap)%nat then Ok [0] else Trap (-2)
  end.
Definition Extract (B : list (list Z)) (s : string) (cap : nat) : res (list Z) := extract_loop B (sbuf s, soffset s) (slen s) 0 cap.

(** ulmConstStrings.Mod 104-112, 345-358 [Open]. *)
Record reader := { rstr : string; rp : pos; rpos : nat }.
Definition Open (s : string) : reader := {| rstr := s; rp := (sbuf s, soffset s); rpos := 0 |}.
(** ulmConstStrings.Mod 465-480 [ReadByte]. *)
Definition ReadByte (B : list (list Z)) (r : reader) : res (option Z * reader) :=
  if (slen (rstr r) <=? rpos r)%nat then Ok (None, r)
  else let* c := byte B (rp r) in Ok (Some c, {| rstr := rstr r; rp := Step (rp r) 1; rpos := S (rpos r) |}).
(** ulmConstStrings.Mod 482-510 [ReadBuf]: the bytes put into the client's buffer. *)
Definition ReadBuf (B : list (list Z)) (r : reader) (cnt : nat) : res (list Z * reader) :=
  if (slen (rstr r) <=? rpos r)%nat then Ok ([], r)
  else let bytes := Nat.min (Nat.min (slen (rstr r) - rpos r) cnt) (bufsize - snd (rp r)) in
    let* x := get_part B (rp r) bytes in
    Ok (x, {| rstr := rstr r; rp := Step (rp r) bytes; rpos := rpos r + bytes |}).
(** ulmConstStrings.Mod 512-543 [Seek], whence = 0, 1, 2. *)
Fixpoint seek_loop (fuel : nat) (p : pos) (cur real : nat) : res pos :=
  match fuel with
  | O => Fuel
  | S fuel => if (cur <? real)%nat then
      if (real - cur <? bufsize - snd p)%nat then seek_loop fuel (fst p, (snd p + (real - cur))%nat) real real
      else seek_loop fuel (S (fst p), O) (cur + (bufsize - snd p)) real
    else Ok p
  end.
Definition Seek (r : reader) (cnt whence : Z) : res (bool * reader) :=
  let realpos := if whence =? 0 then cnt else if whence =? 1 then Z.of_nat (rpos r) + cnt else Z.of_nat (slen (rstr r)) + cnt in
  if (realpos <? 0) || (Z.of_nat (slen (rstr r)) <? realpos) then Ok (false, r)
  else let real := Z.to_nat realpos in
    if negb (real =? rpos r)%nat then
      let back := (real <? rpos r)%nat in
      let p := if back then (sbuf (rstr r), soffset (rstr r)) else rp r in
      let cur := if back then O else rpos r in
      let* p := seek_loop (S (S real)) p cur real in
      Ok (true, {| rstr := rstr r; rp := p; rpos := real |})
    else Ok (true, r).
