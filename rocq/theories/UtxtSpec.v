(** A text as a sequence of bytes and a position. *)
From Verif Require Import Base UtxtModel.
Definition overwrite (s : list Z) (p : nat) (bs : list Z) : list Z := firstn p s ++ bs ++ skipn (p + length bs) s.
Definition part (s : list Z) (p n : nat) : list Z := firstn n (skipn p s).
Inductive op := OWrite (x : Z) | OBufWrite (buf : list Z) (off n : nat) | ORead | OBufRead (buf : list Z) (off n : nat) | OSeek (count : Z) (w : whence) | OTell | OClose | OTrunc (n : Z).
Inductive out := Done | Failed | Byte (x : Z) | Count (n : Z) | Data (n : Z) (buf : list Z).
(** The caller's arrays hold the bytes to be moved. *)
Definition sane (o : op) : Prop := match o with OBufWrite buf off n => (off + n <= length buf)%nat | OBufRead buf off n => (off + n <= length buf)%nat | _ => True end.
(** What an operation does to the bytes and the position, and what it tells. *)
Definition effect (o : op) (s : list Z) (p : nat) : out * list Z * nat :=
  match o with
  | OWrite x => (Done, overwrite s p [x], S p)
  | OBufWrite buf off n => (Count (Z.of_nat n), overwrite s p (part buf off n), (p + n)%nat)
  | ORead => match nth_error s p with Some x => (Byte x, s, S p) | None => (Failed, s, p) end
  | OBufRead buf off n => let k := Nat.min n (length s - p) in (Data (Z.of_nat k) (overwrite buf off (part s p k)), s, (p + k)%nat)
  | OSeek c w =>
    let q := c + match w with fromStart => 0 | fromPos => Z.of_nat p | fromEnd => Z.of_nat (length s) end in
    if (0 <=? q) && (q <=? Z.of_nat (length s)) then (Done, s, Z.to_nat q) else (Failed, s, p)
  | OTell => (Count (Z.of_nat p), s, p)
  | OClose => (Done, [], O)
  | OTrunc n => if (Z.of_nat p <=? n) && (n <=? Z.of_nat (length s)) then (Done, firstn (Z.to_nat n) s, p) else (Failed, s, p)
  end.
Fixpoint effects (l : list op) (s : list Z) (p : nat) : list out :=
  match l with [] => [] | o :: l => let '(r, s, p) := effect o s p in r :: effects l s p end.
(** Truncations stay within the last block of 512 bytes. *)
Fixpoint near (l : list op) (s : list Z) (p : nat) : Prop :=
  match l with
  | [] => True
  | o :: l => (match o with OTrunc n => Z.of_nat (length s) / 512 <= n / 512 | _ => True end) /\ let '(_, s, p) := effect o s p in near l s p
  end.
(** The procedure called by an operation. *)
Definition call (o : op) (t : text) : res (out * text) :=
  match o with
  | OWrite x => let* t := Write t x in Ok (Done, t)
  | OBufWrite buf off n => let* r := BufWrite t buf (Z.of_nat off) (Z.of_nat n) in Ok (Count (fst r), snd r)
  | ORead => let* r := Read t in Ok (match fst r with Some x => Byte x | None => Failed end, snd r)
  | OBufRead buf off n => let* r := BufRead t buf (Z.of_nat off) (Z.of_nat n) in Ok (Data (fst (fst r)) (snd (fst r)), snd r)
  | OSeek c w => let (b, t) := Seek t c w in Ok (if b then Done else Failed, t)
  | OTell => Ok (Count (Tell t), t)
  | OClose => Ok (Done, Close t)
  | OTrunc n => let* r := Trunc t n in Ok (if fst r then Done else Failed, snd r)
  end.
Fixpoint run (l : list op) (t : text) : res (list out) :=
  match l with [] => Ok [] | o :: l => let* r := call o t in let* os := run l (snd r) in Ok (fst r :: os) end.
