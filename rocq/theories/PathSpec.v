(** What path names mean (POSIX pathname resolution), on character lists. *)
From Verif Require Import Base ArrZ.

(** The components of a path: the pieces between '/' characters, possibly empty. *)
Fixpoint split (p : list Z) : list (list Z) :=
  match p with
  | [] => [[]]
  | c :: r => if c =? 47 then [] :: split r else match split r with h :: t => (c :: h) :: t | [] => [[c]] end
  end.
(** Number of leading '/'. *)
Fixpoint lead (p : list Z) : nat := match p with c :: r => if c =? 47 then S (lead r) else O | [] => O end.

(** A file system: where a component leads from a node ('..' and links included), which nodes are directories, and where
    paths start: the current directory, the root, and what exactly two leading '/' mean (implementation-defined). *)
Record fsys := mkfs {
  node : Type; step : node -> list Z -> option node; isdir : node -> bool;
  cwd : node; root : node; root2 : node }.
Definition wf (F : fsys) : Prop := isdir F (cwd F) = true /\ isdir F (root F) = true /\ isdir F (root2 F) = true.
Definition start (F : fsys) (p : list Z) : node F :=
  match lead p with O => cwd F | 2%nat => root2 F | _ => root F end.
Fixpoint walk (F : fsys) (n : node F) (l : list (list Z)) : option (node F) :=
  match l with
  | [] => Some n
  | c :: r =>
      match c with
      | [] | [46] => if isdir F n then walk F n r else None
      | _ => match step F n c with Some m => walk F m r | None => None end
      end
  end.
(** The node a path denotes; an empty path denotes nothing. *)
Definition denotes (F : fsys) (p : list Z) : option (node F) :=
  match p with [] => None | _ => walk F (start F p) (split p) end.

(** The documented result of Trim: at most two leading '/', then the components other than '' and '.'. *)
Definition unbs (p : list Z) : list Z := map (fun c => if c =? 92 then 47 else c) p.
Definition keep (c : list Z) : bool := match c with [] => false | [46] => false | _ => true end.
Fixpoint join (l : list (list Z)) : list Z :=
  match l with [] => [] | [c] => c | c :: r => c ++ 47 :: join r end.
Definition trim (p : list Z) : list Z :=
  let p := unbs p in repeat 47 (Nat.min 2 (lead p)) ++ join (filter keep (split p)).

(** Temporary names: the directory of [d] (up to its last '/'), then ".tmp.", a number, '.', the process number. *)
Fixpoint dirpart (p : list Z) : list Z :=
  match p with [] => [] | c :: r => if existsb (Z.eqb 47) p then c :: dirpart r else [] end.
