(** What the documentation of Strings.Mod (lines 1-29) says, on character sequences. *)
From Verif Require Import Base.

(** src inserted into dst at position pos. *)
Definition insert_at (src : list Z) (pos : nat) (dst : list Z) : list Z := firstn pos dst ++ src ++ skipn pos dst.
(** n characters deleted from position pos. *)
Definition delete_at (s : list Z) (pos n : nat) : list Z := firstn pos s ++ skipn (pos + n) s.
(** n characters extracted from position pos. *)
Definition extract_at (s : list Z) (pos n : nat) : list Z := firstn n (skipn pos s).

(** pat occurs in s at index i. *)
Definition occurs_at (pat s : list Z) (i : nat) : Prop := exists a b, s = a ++ pat ++ b /\ length a = i.

(** Wildcard language: '*' (42) matches any sequence, any other character itself. *)
Inductive glob : list Z -> list Z -> Prop :=
| glob_nil : glob [] []
| glob_char : forall c s p, c <> 42 -> glob s p -> glob (c :: s) (c :: p)
| glob_star : forall u s p, glob s p -> glob (u ++ s) (42 :: p).

(** Upper-case equivalent of a character. *)
Definition upper (c : Z) : Z := if (97 <=? c) && (c <=? 122) then c - 32 else c.
