(** Specification for C32: texts and buffers as plain sequences. *)
From Verif Require Import Base TextsModel.

(** An item of a text: a character (with the mark of text from a plain file, where line ends are
    translated when read) or an element, with its font, colour and vertical offset. *)
Record item := { ich : Z; iel : option nat; ifnt : font; icol : Z; ivoff : Z; iascii : bool }.
Definition char_item (c : Z) (f : font) (k v : Z) (a : bool) : item :=
  {| ich := c; iel := None; ifnt := f; icol := k; ivoff := v; iascii := a |}.
Definition elem_item (i : nat) (f : font) (k v : Z) : item :=
  {| ich := 28; iel := Some i; ifnt := f; icol := k; ivoff := v; iascii := false |}.
Definition change (k : looks) (i : item) : item :=
  {| ich := ich i; iel := iel i;
     ifnt := if s0 k then match lfnt k with Some f => Some f | None => ifnt i end else ifnt i;
     icol := if s1 k then lcol k else icol i;
     ivoff := if s2 k then lvoff k else ivoff i; iascii := iascii i |}.

(** A writer: its buffer and looks.  A buffer is marked [mixed] when something was saved or copied
    to it since it was last empty. *)
Record awriter := { awbuf : nat; awfnt : font; awcol : Z; awvoff : Z }.
Record abuf := { aitems : list item; mixed : bool }.
Record astate := {
  atx : nat -> option (list item); abf : nat -> option abuf; anb : nat;
  awr : nat -> option awriter; adel : option nat }.
Definition ainit : astate :=
  {| atx := fun _ => None; abf := fun _ => None; anb := 0; awr := fun _ => None; adel := None |}.

(** Positions beyond the end mean the end. *)
Definition clip (l : list item) (p : Z) : nat := Nat.min (Z.to_nat p) (length l).
Definition take {A} (n : nat) (l : list A) := firstn n l.
Definition drop {A} (n : nat) (l : list A) := skipn n l.
Definition between {A} (b e : nat) (l : list A) : list A := take (e - b) (drop b l).
(** What a reader shows for an item: line feeds of plain files become carriage returns; the base of
    an element is the text it is in. *)
Definition shown (i : item) : Z := if iascii i && (ich i =? 10) then 13 else ich i.
Fixpoint areads (t : nat) (l : list item) (p : nat) (n : nat) : list reading :=
  match n with
  | O => []
  | S n =>
      (match nth_error l p with
       | Some i => (shown i, ifnt i, icol i, ivoff i, match iel i with Some e => Some (e, Some t) | None => None end,
                    false, Z.of_nat p + 1)
       | None => (0, None, 15, 0, None, true, Z.of_nat p + 1)
       end) :: areads t l (S p) n
  end.
Definition aw_tx (s : astate) (t : nat) (l : list item) : astate :=
  {| atx := upd (atx s) t (Some l); abf := abf s; anb := anb s; awr := awr s; adel := adel s |}.
Definition aw_b (s : astate) (b : nat) (l : list item) (mx : bool) : astate :=
  {| atx := atx s; abf := upd (abf s) b (Some {| aitems := l; mixed := mx |}); anb := anb s; awr := awr s; adel := adel s |}.
Definition aw_nb (s : astate) (l : list item) : astate :=
  {| atx := atx s; abf := upd (abf s) (anb s) (Some {| aitems := l; mixed := false |}); anb := S (anb s); awr := awr s; adel := adel s |}.
Definition text_of (s : astate) (t : nat) : list item := match atx s t with Some l => l | None => [] end.
Definition buf_of (s : astate) (b : nat) : list item := match abf s b with Some l => aitems l | None => [] end.
Definition mixed_of (s : astate) (b : nat) : bool := match abf s b with Some l => mixed l | None => false end.

(** The calls on sequences. *)
Definition astep (s : astate) (c : call) : astate * answer :=
  match c with
  | OpenText t bytes => (aw_tx s t (map (fun c => char_item c dflt 15 0 true) bytes), ANone)
  | NewBuf => (aw_nb s [], ABuf (Some (anb s)))
  | NewWriter w =>
      let s' := aw_nb s [] in
      ({| atx := atx s'; abf := abf s'; anb := anb s'; adel := adel s';
          awr := upd (awr s) w (Some {| awbuf := anb s; awfnt := dflt; awcol := 15; awvoff := 0 |}) |},
       ABuf (Some (anb s)))
  | SetLooks w f k v =>
      match awr s w with
      | Some W => ({| atx := atx s; abf := abf s; anb := anb s; adel := adel s;
                      awr := upd (awr s) w (Some {| awbuf := awbuf W; awfnt := Some f; awcol := k; awvoff := v |}) |}, ANone)
      | None => (s, ANone)
      end
  | WriteCh w ch =>
      match awr s w with
      | Some W => (aw_b s (awbuf W) (buf_of s (awbuf W) ++ [char_item ch (awfnt W) (awcol W) (awvoff W) false])
                     (mixed_of s (awbuf W)), ANone)
      | None => (s, ANone)
      end
  | WriteEl w i =>
      match awr s w with
      | Some W => (aw_b s (awbuf W) (buf_of s (awbuf W) ++ [elem_item i (awfnt W) (awcol W) (awvoff W)])
                     (mixed_of s (awbuf W)), ANone)
      | None => (s, ANone)
      end
  | CopyBuf sb db => (aw_b s db (buf_of s db ++ buf_of s sb) true, ANone)
  | RecallBuf =>
      ({| atx := atx s; abf := abf s; anb := anb s; awr := awr s; adel := None |}, ABuf (adel s))
  | SaveTo t beg e b =>
      let l := text_of s t in
      (aw_b s b (buf_of s b ++ between (clip l beg) (clip l e) l) true, ANone)
  | InsertAt t pos b =>
      let l := text_of s t in
      let p := clip l pos in
      let i := buf_of s b in
      (aw_b (aw_tx s t (take p l ++ i ++ drop p l)) b [] false,
       ANote (NInsert (Z.of_nat p) (Z.of_nat p + Z.of_nat (length i))))
  | AppendTo t b =>
      let l := text_of s t in
      let i := buf_of s b in
      (aw_b (aw_tx s t (l ++ i)) b [] false,
       ANote (NInsert (Z.of_nat (length l)) (Z.of_nat (length l) + Z.of_nat (length i))))
  | DeleteFrom t beg e =>
      let l := text_of s t in
      let b := clip l beg in
      let e := clip l e in
      let s' := aw_nb (aw_tx s t (take b l ++ drop e l)) (between b e l) in
      ({| atx := atx s'; abf := abf s'; anb := anb s'; awr := awr s'; adel := Some (anb s) |},
       ANote (NDelete (Z.of_nat b) (Z.of_nat e)))
  | Change t beg e k =>
      let l := text_of s t in
      let b := clip l beg in
      let e := clip l e in
      (aw_tx s t (take b l ++ map (change k) (between b e l) ++ drop e l),
       ANote (NReplace (Z.of_nat b) (Z.of_nat e)))
  | LenOf t => (s, AInt (Z.of_nat (length (text_of s t))))
  | BufLen b => (s, AInt (Z.of_nat (length (buf_of s b))))
  | ReadN t pos n => (s, ARead (areads t (text_of s t) (clip (text_of s t) pos) n))
  end.

(** What a client has to respect: name what it has opened; ranges are in order; a file opened does
    not start with the tag of an Oberon text or document; a writer's buffer to which something was
    saved or copied is emptied (by Insert or Append) before the writer is used again; a non-empty
    range is saved; a buffer is not copied to itself; a text from a plain file is read only if it
    has no carriage returns.  The last five are shown to be necessary below. *)
Definition live (s : astate) (t : nat) : Prop := atx s t <> None.
Definition livebuf (s : astate) (b : nat) : Prop := abf s b <> None.
Definition plain_file (bytes : list Z) : Prop :=
  match bytes with
  | 240 :: _ | 1 :: 240 :: _ | 247 :: 7 :: _ => False
  | _ => True
  end.
Definition no_cr (l : list item) : Prop := forall i, In i l -> iascii i = true -> ich i <> 13.
Definition legal (s : astate) (c : call) : Prop :=
  match c with
  | OpenText _ bytes => plain_file bytes
  | NewBuf | NewWriter _ | RecallBuf => True
  | SetLooks w _ _ _ | WriteEl w _ => awr s w <> None
  | WriteCh w _ => exists W, awr s w = Some W /\ mixed_of s (awbuf W) = false
  | CopyBuf sb db => livebuf s sb /\ livebuf s db /\ sb <> db
  | SaveTo t beg e b => live s t /\ livebuf s b /\ 0 <= beg /\ (beg < e \/ Z.of_nat (length (text_of s t)) <= beg <= e)
  | InsertAt t pos b => live s t /\ livebuf s b /\ 0 <= pos
  | AppendTo t b => live s t /\ livebuf s b
  | DeleteFrom t beg e | Change t beg e _ => live s t /\ 0 <= beg <= e
  | LenOf t => live s t
  | BufLen b => livebuf s b
  | ReadN t pos n => live s t /\ 0 <= pos /\ no_cr (text_of s t) /\ Z.of_nat n < MAXL
  end.
(** A history of calls, each legal where it is made, with the answers the sequences give. *)
Inductive history : astate -> list call -> list answer -> astate -> Prop :=
  | h_nil s : history s [] [] s
  | h_cons s c l a r s' s'' :
      legal s c -> astep s c = (s', a) -> history s' l r s'' -> history s (c :: l) (a :: r) s''.
(** The answers sequences give, legal or not. *)
Fixpoint answers (a : astate) (l : list call) : list answer :=
  match l with [] => [] | c :: l => let '(a, r) := astep a c in r :: answers a l end.
(** The characters of a reading. *)
Definition chars (a : answer) : list Z :=
  match a with ARead l => map (fun x : reading => let '(ch, _, _, _, _, _, _) := x in ch) l | _ => [] end.
