(** What buffers are: an input buffer has bytes that were consumed and bytes to come, an output buffer has bytes that were written. *)
From Verif Require Import Base ZbufModel.
Definition sound (b : buffer) : Prop := 0 < size b /\ Z.of_nat (length (mem b)) = size b.
Definition input (b : buffer) (consumed pending : list Z) : Prop :=
  sound b /\ avail b = Z.of_nat (length pending) /\ next b = Z.of_nat (length consumed) /\ exists rest, mem b = consumed ++ pending ++ rest.
Definition output (b : buffer) (written : list Z) : Prop :=
  sound b /\ avail b = size b - Z.of_nat (length written) /\ next b = Z.of_nat (length written) /\ exists rest, mem b = written ++ rest.
(** An array with the bytes from offset on replaced. *)
Definition replaced (dst : list Z) (offset : Z) (x : list Z) : list Z := firstn (Z.to_nat offset) dst ++ x ++ skipn (Z.to_nat offset + length x) dst.
(** What clients do with an output buffer: write bytes, or take n bytes out. *)
Inductive action := Put (b : list Z) | Take (n : nat).
(** A sequence of actions on a buffer: the final buffer and the bytes taken out; and the bytes put in. *)
Fixpoint drive (b : buffer) (l : list action) : res (buffer * list Z) :=
  match l with
  | [] => Ok (b, [])
  | Put x :: l => let* b := WriteBytes b x 0 (Z.of_nat (length x)) in drive b l
  | Take n :: l => let* r := Drain b (repeat 0 n) 0 (Z.of_nat n) in let* q := drive (fst r) l in Ok (fst q, snd r ++ snd q)
  end.
Definition puts (l : list action) : list Z := flat_map (fun a => match a with Put x => x | Take _ => [] end) l.
