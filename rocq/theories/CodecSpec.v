(** Specification of the encodings used by the typed reads and writes of Files. *)
From Verif Require Import Base ArrZ.

(** A variable-length number: continuation bytes 128..255, then one last byte 0..127. *)
Fixpoint num_wf (bs : list Z) : Prop :=
  match bs with
  | [] => False
  | [b] => 0 <= b < 128
  | b :: r => 128 <= b < 256 /\ num_wf r
  end.
(** Its value: 7-bit digits, least significant first; the last digit is signed. *)
Fixpoint num_val (bs : list Z) : Z :=
  match bs with
  | [] => 0
  | [b] => if b <? 64 then b else b - 128
  | b :: r => (b - 128) + 128 * num_val r
  end.

(** The n low-order bytes of x, least significant first, and the number they denote. *)
Fixpoint le_bytes (n : nat) (x : Z) : list Z :=
  match n with O => [] | S k => x mod 256 :: le_bytes k (x / 256) end.
Fixpoint le_val (bs : list Z) : Z := match bs with [] => 0 | b :: r => b + 256 * le_val r end.

(** A text line without its terminator: one trailing CR is not part of it. *)
Definition strip_cr (s : list Z) : list Z :=
  match rev s with 13 :: r => rev r | _ => s end.
