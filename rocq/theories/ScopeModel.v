(** Scopes and name lookup. *)
From Verif Require Import Base.

(** The order of names: OPS.name < obj^.name is a comparison of character arrays ([str_cmp], SYSTEM.h 147-154); here on the characters before the 0X. [ScopeProps.ncmp_str_cmp] relates the two. *)
Fixpoint ncmp (x y : list Z) : comparison :=
  match x, y with
  | [], [] => Eq
  | [], _ :: _ => Lt
  | _ :: _, [] => Gt
  | a :: x, b :: y => match a ?= b with Eq => ncmp x y | c => c end
  end.
(** OPT.Mod Objects linked by [left] and [right]: a name and the declaration (here an arbitrary number). *)
Inductive tree := Nil | Node (name : list Z) (obj : Z) (left right : tree).
(** OPT.Mod 437-453 [Find], 455-468 [FindField], 418-435 [FindImport]: the inner loop. *)
Fixpoint find_tree (name : list Z) (t : tree) : option Z :=
  match t with
  | Nil => None
  | Node n o l r => match ncmp name n with Lt => find_tree name l | Gt => find_tree name r | Eq => Some o end
  end.
(** OPT.Mod 437-453 [Find]: [topScope] and the enclosing scopes (linked by [left] of the heads), innermost first. *)
Fixpoint Find (name : list Z) (scopes : list tree) : option Z :=
  match scopes with
  | [] => None
  | t :: outer => match find_tree name t with Some o => Some o | None => Find name outer end
  end.
(** OPT.Mod 455-468 [FindField]: the fields and methods of typ (typ^.link), of its base type, and so on. *)
Fixpoint FindField (name : list Z) (typ : list tree) : option Z :=
  match typ with
  | [] => None
  | link :: base => match find_tree name link with Some o => Some o | None => FindField name base end
  end.
(** OPT.Mod 470-490 [Insert], from ob1 on; [left] is the flag; [stored] the name the new object gets.  Yields the new tree and whether err(1) was called.
    When the name is found, the search goes on to the right without setting the flag; if there is nothing to the right, the object is stored in the side the flag names. *)
Fixpoint insert (name : list Z) (stored : list Z) (obj : Z) (left : bool) (t : tree) : tree * bool :=
  match t with
  | Nil => (Node stored obj Nil Nil, false)
  | Node n o l r =>
      match ncmp name n with
      | Lt => let '(l', e) := insert name stored obj true l in (Node n o l' r, e)
      | Gt => let '(r', e) := insert name stored obj false r in (Node n o l r', e)
      | Eq =>
          match r with
          | Nil => if left then (Node n o (Node stored obj Nil Nil) r, true) else (Node n o l (Node stored obj Nil Nil), true)
          | _ => let '(r', e) := insert name stored obj left r in (Node n o l r', true)
          end
      end
  end.
(** The scopes and the number of errors reported. *)
Record state := mkstate { scopes : list tree; errors : Z }.
(** OPT.Mod 387-393 [OpenScope]. *)
Definition OpenScope (s : state) : state := mkstate (Nil :: scopes s) (errors s).
(** OPT.Mod 395-397 [CloseScope]. *)
Definition CloseScope (s : state) : state := mkstate (tl (scopes s)) (errors s).
(** OPT.Mod 470-490 [Insert]: into topScope; ob0 starts as the scope's head, whose tree hangs on its right. *)
Definition Insert (name stored : list Z) (obj : Z) (s : state) : state :=
  match scopes s with
  | [] => s
  | t :: outer => let '(t', e) := insert name stored obj false t in mkstate (t' :: outer) (errors s + (if e then 1 else 0))
  end.
(** OPP.Mod 815: the hidden variable of a FOR statement is inserted as @@ and then renamed to @for. *)
Definition at_at : list Z := [64; 64].
Definition at_for : list Z := [64; 102; 111; 114].
Definition InsertFor (obj : Z) (s : state) : state := Insert at_at at_for obj s.
