(** Disciplines and forwarded disciplines: src/library/ulm/ulmDisciplines.Mod, src/library/ulm/ulmIndirectDisciplines.Mod.
    Objects are numbers; the list of an object is the list of its members with the identifier copied from the discipline.
    A discipline is what its user put in ([Plain]) or the private discipline of ulmIndirectDisciplines ([Fwd]).
    NIL for objects and disciplines is left out, and so is a change of the field id of a discipline that was added. *)
From Verif Require Import Base.
Inductive body := Plain (x : nat) | Fwd (forwardTo : nat).
Definition dlist := list (Z * body).
Definition heap := nat -> dlist.
Definition upd (h : heap) (o : nat) (l : dlist) : heap := fun q => if (q =? o)%nat then l else h q.
(** ulmDisciplines.Mod 70-78 [Unique]; the variable unique is a LONGINT of 32 bits, the overflow of INC is undefined in C. *)
Definition Unique (unique : Z) : res Z := chk 32 (unique + 1).
(** ulmDisciplines.Mod 80-97 [Remove]. *)
Fixpoint Remove (l : dlist) (id : Z) : dlist :=
  match l with [] => [] | (i, b) :: l => if negb (i =? id) then (i, b) :: Remove l id else l end.
(** ulmDisciplines.Mod 99-118 [Add]: the loop of lines 108-110 with the assignment of line 117; [None] if it ends with NIL. *)
Fixpoint replace_disc (l : dlist) (id : Z) (b : body) : option dlist :=
  match l with [] => None | (i, c) :: l => if negb (i =? id) then match replace_disc l id b with Some l => Some ((i, c) :: l) | None => None end else Some ((i, b) :: l) end.
Definition Add (l : dlist) (id : Z) (b : body) : dlist := match replace_disc l id b with Some l => l | None => (id, b) :: l end.
(** ulmDisciplines.Mod 120-136 [Seek]. *)
Fixpoint Seek (l : dlist) (id : Z) : option body :=
  match l with [] => None | (i, b) :: l => if negb (i =? id) then Seek l id else Some b end.
(** ulmIndirectDisciplines.Mod: the type guard disc(IndDiscipline) traps for any other discipline. *)
Definition forwardTo (b : body) : res nat := match b with Fwd t => Ok t | Plain _ => Trap 5 end.
Section ind.
(** The identifier of the private discipline. *)
Variable discID : Z.
(** ulmIndirectDisciplines.Mod 54-65 [Forward]. *)
Definition Forward (h : heap) (from : nat) (to : option nat) : heap :=
  match to with None => upd h from (Remove (h from) discID) | Some t => upd h from (Add (h from) discID (Fwd t)) end.
(** ulmIndirectDisciplines.Mod 72-80 [Add]. *)
Fixpoint AddI (f : nat) (h : heap) (o : nat) (id : Z) (b : body) : res heap :=
  match f with
  | O => Fuel
  | S f => match Seek (h o) discID with Some d => let* t := forwardTo d in AddI f h t id b | None => Ok (upd h o (Add (h o) id b)) end
  end.
(** ulmIndirectDisciplines.Mod 82-96 [Remove]. *)
Fixpoint RemoveI (f : nat) (h : heap) (o : nat) (id : Z) : res heap :=
  match f with
  | O => Fuel
  | S f =>
    match Seek (h o) id with
    | Some _ => Ok (upd h o (Remove (h o) id))
    | None => match Seek (h o) discID with None => Ok h | Some d => let* t := forwardTo d in RemoveI f h t id end
    end
  end.
(** ulmIndirectDisciplines.Mod 98-112 [Seek]. *)
Fixpoint SeekI (f : nat) (h : heap) (o : nat) (id : Z) : res (option body) :=
  match f with
  | O => Fuel
  | S f =>
    match Seek (h o) id with
    | Some b => Ok (Some b)
    | None => match Seek (h o) discID with None => Ok None | Some d => let* t := forwardTo d in SeekI f h t id end
    end
  end.
End ind.
