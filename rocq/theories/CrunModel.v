(** The files written by a run of the compiler: src/compiler/Compiler.Mod 9-45 and 115-157, OPT.Mod 402-410, 679-687, 1041-1070, 1270-1295,
    OPM.Mod 582-597, 628-656, 733-779, extTools.Mod 10-80.
    The front end and the code generator are represented by their results for a source ([src]); the module SYSTEM, which has no symbol file, is left out. *)
From Verif Require Import Base.

Definition text := list Z.
(** The files of a module in the current directory: M.sym, M.h, M.c and M.o. *)
Inductive kind := Sym | Hdr | Body | Obj.
Definition kind_eqb (a b : kind) : bool :=
  match a, b with Sym, Sym | Hdr, Hdr | Body, Body | Obj, Obj => true | _, _ => false end.
Definition dir := nat -> kind -> option text.
(** The effects on the directory, one after the other; a run may be stopped between any two of them. *)
Inductive eff := Del (m : nat) (k : kind) | Put (m : nat) (k : kind) (c : text).
Definition upd (d : dir) (m : nat) (k : kind) (v : option text) : dir :=
  fun m' k' => if (m' =? m)%nat && kind_eqb k' k then v else d m' k'.
Definition do1 (d : dir) (e : eff) : dir := match e with Del m k => upd d m k None | Put m k c => upd d m k (Some c) end.
Definition apply (es : list eff) (d : dir) : dir := fold_left do1 es d.
(** Files.Mod Register (C21): a file that fits into the buffers is written in place after the old one has been removed; otherwise it is renamed. *)
Definition Register (inplace : bool) (m : nat) (k : kind) (c : text) : list eff :=
  if inplace then Del m k :: map (fun j => Put m k (firstn j c)) (seq 0 (S (length c))) else [Put m k c].

(** What reading an old symbol file yields: it is foreign (OPM.Mod 589-595), or it is compared with the new one.  An event is a call of FPrintErr,
    true for an extension (error 253); [reffp] tells that the fingerprints of the anonymous types differ; [broken] that reading reported an error. *)
Record verdict := { foreign : bool; broken : bool; events : list bool; reffp : bool }.
(** The results of the passes for one source. *)
Record src := {
  self : nat;
  front_ok : bool;                 (** Compiler.Mod 12-13: no error in OPP.Module *)
  symtext : text; hdrtext : text; bodytext : text;
  gen_ok : bool                    (** Compiler.Mod 22-23: no error in OPV.Module *)
}.
(** OPM.Mod 12-28. *)
Record opts := { newsf : bool; extsf : bool; forcenewsym : bool; mainprog : bool; dontasm : bool; dontlink : bool }.
(** The surroundings: symbol files in directories searched before and after the current one (OPM.Mod 340-350, Files.Old C57), the comparison of an
    old symbol file with a new one, the C compiler, and which files are written in place. *)
Record world := {
  before : nat -> option text; after : nat -> option text;
  compare : text -> text -> verdict;
  cc : dir -> nat -> option text;
  inplace : nat -> kind -> bool
}.

Section Run.
Variable w : world.
(** OPM.Mod 582-597 with the search of Files.Old. *)
Definition find (d : dir) (m : nat) : option text :=
  match before w m with Some c => Some c | None => match d m Sym with Some c => Some c | None => after w m end end.
(** OPT.Mod 679-687: the errors of FPrintErr; the state is (symExtended, symNew, noerr). *)
Definition FPrintErr (nsf esf : bool) (st : bool * bool * bool) (ext : bool) : bool * bool * bool :=
  let '(symExtended, symNew, noerr) := st in
  if ext then (true, symNew, noerr && negb (negb symNew && negb symExtended && negb esf))
  else (symExtended, true, noerr && negb (negb symNew && negb nsf)).
(** OPT.Mod 1041-1070 [Import] of the module itself and 1270-1295 [Export]: effects, noerr, ext and new. *)
Definition Export (o : opts) (s : src) (d : dir) : list eff * bool * bool * bool :=
  let m := self s in
  let nsf := newsf o in
  let esf := nsf || extsf o in
  let '(e1, old) := if forcenewsym o then ([Del m Sym], None) else ([], find d m) in
  let old := match old with Some c => if foreign (compare w c (symtext s)) then None else Some c | None => None end in
  match old with
  | None => (e1, true, false, true)
  | Some c =>
    let v := compare w c (symtext s) in
    if broken v then (e1, false, false, false)
    else
      let '(symExtended, symNew, noerr) := fold_left (FPrintErr nsf esf) (events v) (false, false, true) in
      let ext := symExtended in
      let new := symNew || forcenewsym o in
      let '(new, noerr) := if noerr && reffp v then (true, esf) else (new, noerr) in
      if noerr then (e1, true, ext, new) else (e1 ++ [Del m Sym], false, ext, new)
  end.
(** OPM.Mod 759-779. *)
Definition CloseFiles (o : opts) (s : src) : list eff :=
  let m := self s in
  if negb (mainprog o) then Register (inplace w m Hdr) m Hdr (hdrtext s) ++ Register (inplace w m Body) m Body (bodytext s)
  else Del m Hdr :: Del m Sym :: Register (inplace w m Body) m Body (bodytext s).
(** Compiler.Mod 9-45: the effects and whether the module was translated. *)
Definition Module (o : opts) (s : src) (d : dir) : list eff * bool :=
  let m := self s in
  if negb (front_ok s) then ([], false)
  else
    let '(e1, noerr, ext, new) := Export o s d in
    if negb noerr then (e1, false)
    else
      let e2 := e1 ++ [Del m Obj] in
      if negb (gen_ok s) then (e2 ++ [Del m Sym], false)
      else
        let e3 := if mainprog o then [Del m Sym] else if new || ext then Register (inplace w m Sym) m Sym (symtext s) else [] in
        (e2 ++ e3 ++ CloseFiles o s, true).
(** Compiler.Mod 133-155 and extTools.Mod 10-80: the C compiler; a failure ends the run.  Linking writes the program, which is no file of a module. *)
Definition Assemble (o : opts) (s : src) (d : dir) : list eff * bool :=
  if dontasm o then ([], true)
  else if dontlink o || negb (mainprog o) then match cc w d (self s) with Some c => ([Put (self s) Obj c], true) | None => ([], false) end
  else ([], true).
(** Compiler.Mod 115-157: the modules of a command line. *)
Fixpoint Translate (us : list (opts * src)) (d : dir) : list eff :=
  match us with
  | [] => []
  | (o, s) :: us =>
    let '(e1, done) := Module o s d in
    if negb done then e1
    else
      let d1 := apply e1 d in
      let '(e2, done) := Assemble o s d1 in
      if negb done then e1 ++ e2 else e1 ++ e2 ++ Translate us (apply e2 d1)
  end.
End Run.
