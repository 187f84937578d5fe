(** What a text shows, independently of how it is cut into runs. *)
From Verif Require Import Base TfileModel.
(** A character or an element, with colour and offset. *)
Inductive item := Chr (ch : Z) | Object (id : list Z * list Z) (w h : Z) (data : list Z).
(** Lines of an ascii file end with LF, CR or CR LF, all shown as CR. *)
Fixpoint lines (b : list Z) : list Z :=
  match b with
  | [] => []
  | 13 :: (10 :: b) => 13 :: lines b
  | ch :: b => (if ch =? 10 then 13 else ch) :: lines b
  end.
Definition shown1 (u : run) : list (item * Z * Z) :=
  match body u with
  | Piece b ascii => map (fun ch => (Chr ch, col u, voff u)) (if ascii then lines b else b)
  | Elem (Some id) w h data => [(Object id w h data, col u, voff u)]
  | Elem None _ _ _ => []
  end.
Definition shown (l : list run) : list (item * Z * Z) := flat_map shown1 l.
(** The length of a text counts the bytes of its pieces and one for each element. *)
Definition length_of (l : list run) : Z := fold_right Z.add 0 (map (fun u => match body u with Piece b _ => Z.of_nat (length b) | Elem _ _ _ _ => 1 end) l).
Definition is_name (n : list Z) : Prop := (length n <= 30)%nat /\ Forall (fun c => 0 < c < 256) n.
(** Runs of texts made with writers and by opening files; elements that give no module name are not stored. *)
Definition good (u : run) : Prop :=
  -128 <= col u < 128 /\ -128 <= voff u < 128 /\
  match body u with
  | Piece b _ => b <> [] /\ Forall (fun c => 0 <= c < 256) b
  | Elem (Some (m, p)) w h data => is_name m /\ is_name p /\ m <> [] /\ in_int 32 w /\ in_int 32 h /\ Forall (fun c => 0 <= c < 256) data /\ Z.of_nat (length data) < 2 ^ 31
  | Elem None _ _ _ => True
  end.
(** The font names come from a list of 30 names, the kinds of elements from a list of 62. *)
Definition few (F : list (list Z)) (E : list (list Z * list Z)) (u : run) : Prop :=
  match body u with Elem None _ _ _ => True | b => (exists i n, fnt u = Some (i, n) /\ In n F /\ is_name n) /\ match b with Elem (Some id) _ _ _ => In id E | _ => True end end.
(** No CR LF in ascii pieces. *)
Definition no_crlf (u : run) : Prop := match body u with Piece b true => forall x y, b <> x ++ 13 :: 10 :: y | _ => True end.
