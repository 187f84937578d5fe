(** The code generated for the start of modules, and its execution. *)
From Verif Require Import Base ScopeModel InitSpec.

(** OPT.Mod 470-490 [Insert] for each declaration of the module, OPT.Mod 1043-1075 [Import] for the imports: the object is the position of
    the declaration.  The hidden variables of FOR statements, fields and local scopes are left out. *)
Definition declare (t : tree) (d : list Z * Z) : tree := fst (insert (fst d) (fst d) (snd d) false t).
Fixpoint numbered {A} (k : Z) (ds : list (A * dec)) : list (A * Z) := match ds with [] => [] | (a, _) :: r => (a, k) :: numbered (k + 1) r end.
Definition scope (ds : list (list Z * dec)) : tree := fold_left declare (numbered 0 ds) Nil.
Definition object (ds : list (list Z * dec)) (i : Z) : dec := snd (nth (Z.to_nat i) ds ([], Other)).

(** The statements written by EnterBody and ExitBody, OPC.Mod 907-937, SYSTEM.h 248-273; [SBody] stands for the statements of the body,
    OPV.Mod [stat] of the node Nenter.  A RETURN in the body is the same as the statement at the end, OPV.Mod 896. *)
Inductive cstat := SInit | SDefmod | SImport (y : list Z) | SRegmod | SRegmain | SRegcmd (c : list Z) | SBody | SEndmod | SFini.
(** OPT.Mod 1046-1069: mode Mod, and mnolev 0 for SYSTEM; the name of GlbMod[-mnolev] is that of the imported module. *)
Definition is_import (d : dec) : option (list Z) := match d with Import y => if name_eqb y SYSTEM then None else Some y | _ => None end.
(** OPC.Mod 859-870 [InitImports]. *)
Fixpoint InitImports (ds : list (list Z * dec)) (t : tree) : list cstat :=
  match t with
  | Nil => []
  | Node _ o l r => InitImports ds l ++ match is_import (object ds o) with Some y => [SImport y] | None => [] end ++ InitImports ds r
  end.
(** OPP.Mod 652: mode XProc when exported, and not for a code procedure. *)
Definition is_xproc (d : dec) : bool := match d with Proc exported code _ _ => exported && negb code | _ => false end.
(** OPC.Mod 845-857 [RegCmds]; the history of the object is left out: procedures that are only in the old symbol file are not declared.
    The walk starts at the head of the scope and so visits the predeclared objects too, none of which is an exported procedure. *)
Fixpoint RegCmds (ds : list (list Z * dec)) (t : tree) : list cstat :=
  match t with
  | Nil => []
  | Node n o l r =>
      RegCmds ds l ++
      (if is_xproc (object ds o) then match object ds o with Proc _ _ false false => [SRegcmd n] | _ => [] end else []) ++
      RegCmds ds r
  end.
(** OPC.Mod 907-937; [main]: the option mainprog. *)
Definition code (main : bool) (m : modul) : list cstat :=
  let t := scope (decls m) in
  (if main then SInit else SDefmod) :: InitImports (decls m) t ++ (if main then SRegmain else SRegmod) :: RegCmds (decls m) t ++
  [SBody; if main then SFini else SEndmod].

(** The modules whose static variable m is set, and what has happened. *)
Record world := { set : list (list Z); log : list event }.
Definition is_set (x : list Z) (w : world) : bool := existsb (name_eqb x) (set w).
Definition say (e : event) (w : world) : world := {| set := set w; log := log w ++ [e] |}.
(** [Back]: the function returned; [Halted]: the program ended in a body; [Endless]: the fuel is used up; [Unlinked]: no such function. *)
Inductive out := Back (w : world) | Halted (w : world) | Endless | Unlinked.
(** SYSTEM.h 252-273, Heap.Mod 131-147 and 165-186, Modules.Mod 35-45; [x]: the module the function belongs to; [call y]: y__init(). *)
Fixpoint exec (call : list Z -> world -> out) (x : list Z) (hlt : bool) (ss : list cstat) (w : world) : out :=
  match ss with
  | [] => Back w
  | SInit :: r => match call Modules (say EHeap w) with Back w => exec call x hlt r w | o => o end
  | SDefmod :: r => if is_set x w then Back w else exec call x hlt r w
  | SImport y :: r => match call y w with Back w => exec call x hlt r (say (EClient x y) w) | o => o end
  | SRegmod :: r => exec call x hlt r (if is_set x w then w else say (EReg x) {| set := x :: set w; log := log w |})
  | SRegmain :: r => exec call x hlt r (say (EReg x) {| set := x :: set w; log := log w |})
  | SRegcmd c :: r => exec call x hlt r (say (ECmd x c) w)
  | SBody :: r => let w := say (EBody x) w in if hlt then Halted w else exec call x hlt r w
  | SEndmod :: r => Back w
  | SFini :: r => Back (say EFinal w)
  end.
Fixpoint init (P : list Z -> option modul) (fuel : nat) (x : list Z) (w : world) : out :=
  match fuel with
  | O => Endless
  | S f => match P x with Some m => exec (init P f) x (halts m) (code false m) w | None => Unlinked end
  end.
(** The C function main of the module [x]. *)
Definition start (P : list Z -> option modul) (fuel : nat) (x : list Z) : out :=
  match P x with Some m => exec (init P fuel) x (halts m) (code true m) {| set := []; log := [] |} | None => Unlinked end.
