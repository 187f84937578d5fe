(** Creating strings one after the other, and what strings and readers are for the client. *)
From Verif Require Import Base KstrModel.
(** The domain after creating the given strings, and the object returned for each. *)
Fixpoint creates (d : domain) (l : list (list Z)) : res (domain * list nat) :=
  match l with
  | [] => Ok (d, [])
  | c :: l => let* r := Create d c in let* q := creates (fst r) l in Ok (fst q, snd r :: snd q)
  end.
(** Object i was created in d for the bytes c. *)
Definition made (d : domain) (s : string) (c : list Z) : Prop :=
  exists l ids k i, creates CreateDomain l = Ok (d, ids) /\ nth_error l k = Some c /\ nth_error ids k = Some i /\ nth_error (strs d) i = Some s.
(** Lexicographic order, a prefix being smaller. *)
Fixpoint lex (a b : list Z) : comparison :=
  match a, b with
  | [], [] => Eq | [], _ => Lt | _, [] => Gt
  | x :: a, y :: b => match x ?= y with Eq => lex a b | r => r end
  end.
Definition sign (z : Z) : comparison := z ?= 0.
(** What clients do with a reader, and what a file with the bytes c and a position answers.  A buffer may be filled less than asked for. *)
Inductive event := GotByte (c : option Z) | GotBytes (n : nat) (x : list Z) | Sought (cnt whence : Z) (ok : bool).
Definition answers (c : list Z) (p : nat) (e : event) (p' : nat) : Prop :=
  match e with
  | GotByte o => o = nth_error c p /\ p' = Nat.min (S p) (length c)
  | GotBytes n x => firstn (length x) (skipn p c) = x /\ (length x <= n)%nat /\ (x = [] -> n = O \/ (length c <= p)%nat) /\ p' = (p + length x)%nat
  | Sought cnt whence ok =>
    let t := if whence =? 0 then cnt else if whence =? 1 then Z.of_nat p + cnt else Z.of_nat (length c) + cnt in
    if (0 <=? t) && (t <=? Z.of_nat (length c)) then ok = true /\ Z.of_nat p' = t else ok = false /\ p' = p
  end.
Inductive request := WantByte | WantBytes (n : nat) | WantSeek (cnt whence : Z).
Fixpoint session (B : list (list Z)) (r : reader) (l : list request) : res (list event) :=
  match l with
  | [] => Ok []
  | WantByte :: l => let* a := ReadByte B r in let* q := session B (snd a) l in Ok (GotByte (fst a) :: q)
  | WantBytes n :: l => let* a := ReadBuf B r n in let* q := session B (snd a) l in Ok (GotBytes n (fst a) :: q)
  | WantSeek cnt w :: l => let* a := Seek r cnt w in let* q := session B (snd a) l in Ok (Sought cnt w (fst a) :: q)
  end.
Inductive file (c : list Z) : nat -> list event -> Prop :=
| file_end : forall p, file c p []
| file_more : forall p e p' l, answers c p e p' -> file c p' l -> file c p (e :: l).
Definition request_of (e : event) : request := match e with GotByte _ => WantByte | GotBytes n _ => WantBytes n | Sought a b _ => WantSeek a b end.
