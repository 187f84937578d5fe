(** What a program does before and while its main module runs, said in terms of the source text only. *)
From Coq Require Import List Permutation Sorted.
From Verif Require Import Base.
Import ListNotations.
Local Open Scope Z_scope.

(** A module as a sequence of declarations with their local names: an import (of the module whose name is given), a procedure, or
    anything else.  [halts]: its body ends the program (HALT, a trap) instead of running to its end. *)
Inductive dec :=
| Import (target : list Z)
| Proc (exported code params result : bool)
| Other.
Record modul := { decls : list (list Z * dec); halts : bool }.
Definition prog := list (list Z * modul).
Definition SYSTEM : list Z := [83; 89; 83; 84; 69; 77].
Definition Modules : list Z := [77; 111; 100; 117; 108; 101; 115].

(** What can be seen of a start: the heap is made ready; module [x] asks for [y] and is counted as its client; [x] is entered in the list
    of modules; its command [c] is entered; the body of [x] is executed; the program is finalised. *)
Inductive event := EHeap | EClient (x y : list Z) | EReg (x : list Z) | ECmd (x c : list Z) | EBody (x : list Z) | EFinal.
(** The module that does it. *)
Definition about (e : event) : list (list Z) := match e with EClient x _ | EReg x | ECmd x _ | EBody x => [x] | EHeap | EFinal => [] end.
Definition bodies (l : list event) : list (list Z) := flat_map (fun e => match e with EBody x => [x] | _ => [] end) l.
Definition name_eqb (a b : list Z) : bool := if list_eq_dec Z.eq_dec a b then true else false.
Definition clients (x y : list Z) (l : list event) : nat :=
  length (filter (fun e => match e with EClient a b => name_eqb a x && name_eqb b y | _ => false end) l).

(** The imports of a module, as written: local name and module.  SYSTEM is not a module. *)
Definition imports (m : modul) : list (list Z * list Z) :=
  flat_map (fun d => match snd d with Import y => if name_eqb y SYSTEM then [] else [(fst d, y)] | _ => [] end) (decls m).
(** Commands: exported procedures without parameters and result, other than code procedures. *)
Definition is_command (d : dec) : bool := match d with Proc true false false false => true | _ => false end.
Definition commands (m : modul) : list (list Z) := flat_map (fun d => if is_command (snd d) then [fst d] else []) (decls m).
(** The order of the alphabet, extended to names. *)
Fixpoint before (a b : list Z) : Prop :=
  match a, b with
  | _, [] => False
  | [], _ :: _ => True
  | c :: a, d :: b => c < d \/ c = d /\ before a b
  end.
(** [l] is the list [k], in the order of the local names. *)
Definition sorted_as {A} (nm : A -> list Z) (k l : list A) : Prop := Permutation k l /\ StronglySorted (fun p q => before (nm p) (nm q)) l.

Section Program.
Variable P : list Z -> option modul.
Definition imports_of (x : list Z) : list (list Z * list Z) := match P x with Some m => imports m | None => [] end.
(** [x] imports [y], directly or not. *)
Inductive needs (x : list Z) : list Z -> Prop :=
| needs_self : needs x x
| needs_step : forall y z a, needs x y -> In (a, z) (imports_of y) -> needs x z.
(** A program the compiler and the linker accept: the local names of a module are distinct identifiers, and every imported module is
    there. *)
Definition identifier (a : list Z) : Prop := exists c r, a = c :: r /\ 64 < c.
Definition well_formed (x : list Z) : Prop :=
  exists m, P x = Some m /\ NoDup (map fst (decls m)) /\ Forall identifier (map fst (decls m)).
Definition linked (main : list Z) : Prop := forall x, needs main x \/ needs Modules x -> well_formed x.
(** No module imports itself, directly or not. *)
Definition acyclic : Prop := exists rank : list Z -> nat, forall x a y, In (a, y) (imports_of x) -> (rank y < rank x)%nat.

(** [order d w l]: with the modules [d] executed already, asking for the modules [w] one after the other executes the modules [l], each
    after the modules it imports, which are asked for in the order of their local names. *)
Inductive order : list (list Z) -> list (list Z) -> list (list Z) -> Prop :=
| order_nil : forall d, order d [] []
| order_done : forall d x w l, In x d -> order d w l -> order d (x :: w) l
| order_new : forall d x w s l1 l2, ~ In x d -> sorted_as fst (imports_of x) s -> order d (map snd s) l1 ->
    order (d ++ l1 ++ [x]) w l2 -> order d (x :: w) (l1 ++ x :: l2).
End Program.
