(** What the comments of oocStrings.Mod promise, on character sequences. *)
From Verif Require Import Base.
Local Open Scope nat_scope.
(** The first [n] characters of the constructed string: what is assigned to a variable with room for [n]. *)
Definition cut (n : nat) (s : list Z) : list Z := firstn n s.
(** The array [d], changed to [d'], now holds [s] properly terminated, and has the same length. *)
Definition holds (d d' s : list Z) : Prop := length d' = length d /\ terminated d' /\ str_of d' = s.
(** [n] characters from position [pos]; without them; with others inserted, or put in their place. *)
Definition taken (s : list Z) (pos n : nat) : list Z := firstn n (skipn pos s).
Definition without (s : list Z) (pos n : nat) : list Z := firstn pos s ++ skipn (pos + n) s.
Definition inserted (x : list Z) (pos : nat) (s : list Z) : list Z := if pos <=? length s then firstn pos s ++ x ++ skipn pos s else s.
Definition replaced (x : list Z) (pos : nat) (s : list Z) : list Z :=
  if pos <=? length s then firstn pos s ++ firstn (length s - pos) x ++ skipn (pos + length x) s else s.
(** [s] has [n] characters from position [pos] on. *)
Definition has (len pos n : nat) : Prop := forall s : list Z, length s = len -> exists u x v, s = u ++ x ++ v /\ length u = pos /\ length x = n.
(** Lexical order. *)
Inductive before : list Z -> list Z -> Prop :=
  | b_nil : forall c b, before [] (c :: b)
  | b_lt : forall c e a b, (c < e)%Z -> before (c :: a) (e :: b)
  | b_eq : forall c a b, before a b -> before (c :: a) (c :: b).
(** [x] occurs in [s] at position [i]. *)
Definition occurs (x s : list Z) (i : nat) : Prop := exists u v, s = u ++ x ++ v /\ length u = i.
(** The first position where two strings differ. *)
Definition differ (a b : list Z) (i : nat) : Prop := firstn i a = firstn i b /\ nth_error a i <> nth_error b i.
(** Capital letter. *)
Definition capital (c : Z) : Z := if ((97 <=? c) && (c <=? 122))%Z then (c - 32)%Z else c.
