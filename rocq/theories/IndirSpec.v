(** Data attached to objects: a map from objects and identifiers. *)
From Verif Require Import Base.
Section spec.
Variable body : Type.
Variable fwd : nat -> body.
(** The identifier under which an object keeps the object it forwards to. *)
Variable me : Z.
Definition map := nat -> Z -> option body.
Definition put (M : map) (o : nat) (id : Z) (x : option body) (M' : map) : Prop := forall p i, M' p i = if (p =? o)%nat && (i =? id) then x else M p i.
(** The end of the chain of forwards that starts with o. *)
Inductive last (M : map) : nat -> nat -> Prop :=
| last_here : forall o, M o me = None -> last M o o
| last_next : forall o t e, M o me = Some (fwd t) -> last M t e -> last M o e.
(** The first object of the chain that has id, with what it has; or none has it. *)
Inductive finds (M : map) (id : Z) : nat -> option (nat * body) -> Prop :=
| finds_here : forall o b, M o id = Some b -> finds M id o (Some (o, b))
| finds_next : forall o t r, M o id = None -> M o me = Some (fwd t) -> finds M id t r -> finds M id o r
| finds_none : forall o, M o id = None -> M o me = None -> finds M id o None.
(** What users do: directly with an object, with forwards, and through the forwards. *)
Inductive op := ADD (o : nat) (id : Z) (b : body) | REMOVE (o : nat) (id : Z) | FORWARD (o : nat) (t : option nat) | ADD_VIA (o : nat) (id : Z) (b : body) | REMOVE_VIA (o : nat) (id : Z).
Inductive does (M : map) : op -> map -> Prop :=
| does_add : forall o id b M', put M o id (Some b) M' -> does M (ADD o id b) M'
| does_remove : forall o id M', put M o id None M' -> does M (REMOVE o id) M'
| does_forward : forall o t M', put M o me (match t with Some t => Some (fwd t) | None => None end) M' -> does M (FORWARD o t) M'
| does_add_via : forall o id b e M', last M o e -> put M e id (Some b) M' -> does M (ADD_VIA o id b) M'
| does_remove_via : forall o id e b M', finds M id o (Some (e, b)) -> put M e id None M' -> does M (REMOVE_VIA o id) M'
| does_remove_none : forall o id, finds M id o None -> does M (REMOVE_VIA o id) M.
Inductive history : list op -> map -> Prop :=
| history_nil : history [] (fun _ _ => None)
| history_step : forall l M o M', history l M -> does M o M' -> history (l ++ [o]) M'.
End spec.
