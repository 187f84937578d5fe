(** Values that are exchanged, and the bytes that stand for them. *)
From Verif Require Import Base.
Inductive item := Byte (b : Z) | Int (v : Z) | Set32 (v : Z) | Text (t : list Z) | Flag (b : bool) | Short (v : Z) | Real (m : list Z) | Const (t : list Z).
(** Texts have no zeros; [n] is the length of the arrays they are read into. A real number is eight bytes; a constant string of less than 512 characters has no zeros, longer ones may have some. *)
Definition exchangeable (n : Z) (x : item) : Prop :=
  match x with Byte b => 0 <= b < 256 | Int v => in_int 32 v | Set32 v => 0 <= v < 2 ^ 32 | Text t => Forall (fun c => 0 < c < 256) t /\ Z.of_nat (length t) < n
  | Flag _ => True | Short v => in_int 8 v | Real m => length m = 8%nat
  | Const t => Z.of_nat (length t) < 2 ^ 31 /\ (Z.of_nat (length t) < 512 -> ~ In 0 t) end.
(** Most significant byte first. *)
Definition network (v : Z) : list Z := let u := v mod 2 ^ 32 in [u / 2 ^ 24; (u / 2 ^ 16) mod 256; (u / 2 ^ 8) mod 256; u mod 256].
(** Element e of a set is bit e of the four bytes, counted from the most significant bit of the first one. *)
Definition set_wire (v : Z) (w : list Z) : Prop := length w = 4%nat /\ forall e, 0 <= e < 32 -> Z.testbit (nth (Z.to_nat (e / 8)) w 0) (7 - e mod 8) = Z.testbit v e.
