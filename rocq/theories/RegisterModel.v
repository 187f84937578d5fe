(** File names, the directory, and Register: src/runtime/Files.Mod 124-231, 521-587. *)
From Verif Require Import Base ArrZ FilesModel.

(** A directory maps names to file contents (one file system, no links); a name is its character list. *)
Definition name := list Z.
Definition name_eqb (a b : name) : bool := if list_eq_dec Z.eq_dec a b then true else false.
Definition dir := name -> option (list Z).
Definition upd (d : dir) (n : name) (c : option (list Z)) : dir := fun m => if name_eqb m n then c else d m.

(** The system calls that change the directory or a file (Platformunix.Mod 247-258, 339-400): unlink, creat, write at an
    offset, truncate to 0, rename.  Each is taken to be atomic and to succeed. *)
Inductive ev :=
| EUnlink (n : name) | ECreate (n : name) | EWrite (n : name) (p : Z) (xs : list Z) | ETruncate (n : name)
| ERename (a b : name).
Definition apply (d : dir) (e : ev) : dir :=
  match e with
  | EUnlink n => upd d n None
  | ECreate n => upd d n (Some [])
  | EWrite n p xs => match d n with Some c => upd d n (Some (put c p xs)) | None => d end
  | ETruncate n => match d n with Some _ => upd d n (Some []) | None => d end
  | ERename a b => match d a with Some c => upd (upd d b (Some c)) a None | None => d end
  end.
Definition applys (d : dir) (es : list ev) : dir := fold_left apply es d.

(** Files.Mod 172-173, 203, 343: what a file's own calls do to the OS file of name [w]. *)
Definition ev_of (w : name) (s : sysop) : list ev :=
  match s with
  | SCreate => [EUnlink w; ECreate w]
  | SWrite p xs => [EWrite w p xs]
  | STruncate => [ETruncate w]
  end.
Definition evs_of (w : name) (l : list sysop) : list ev := flat_map (ev_of w) l.

(** Files.Mod 31, 156-171: the work name given by Create: while the file is being created it is a temporary name in the
    directory of the final name, when it is being registered with all data in buffers it is the final name. *)
Inductive fstate := StCreate | StClose.
Definition work_name (st : fstate) (tmp reg : name) : name :=
  match st with StCreate => tmp | StClose => reg end.

(** Files.Mod 124-149 [Deregister(name)].  [prev]: work name of the File already open on the OS file called [n], if
    any, and the temporary name it is moved to. *)
Definition Deregister (d : dir) (n : name) (prev : option (name * name)) : list ev :=
  match d n, prev with
  | Some _, Some (w, t) => [ERename w t]
  | _, _ => []
  end.

(** Files.Mod 527-548 [Rename(old, new)] within one file system: line 538 deletes [new] only when it does not exist.
    Across file systems it copies (550-571, not modelled: the temporary name is in the directory of the final name). *)
Definition Rename (d : dir) (old new : name) : list ev :=
  match d old with
  | None => []
  | Some _ => (match d new with None => [EUnlink new] | Some _ => [] end) ++ [ERename old new]
  end.

(** The system calls a new file [f] has made before it is registered. *)
Definition history (f : file) (tmp reg : name) : list ev := evs_of (work_name StCreate tmp reg) (log f).

(** Files.Mod 576-587 [Register(f)] of a file made by New(reg): the system calls, in order, from directory [d]. *)
Definition Register (d : dir) (f : file) (tmp reg : name) (prev : option (name * name)) : list ev :=
  match reg with
  | [] => if fd f then evs_of tmp (skipn (length (log f)) (log (Close f))) else []
  | _ =>
      let calls := skipn (length (log f)) (log (Close f)) in
      if fd f then
        let e1 := evs_of tmp calls in
        let e2 := Deregister (applys d e1) reg prev in
        let e3 := Rename (applys d (e1 ++ e2)) tmp reg in
        e1 ++ e2 ++ e3
      else
        Deregister d reg prev ++ evs_of (work_name StClose tmp reg) calls
  end.

(** Files.Mod 521-525 [Delete(name)]. *)
Definition Delete (d : dir) (n : name) (prev : option (name * name)) : list ev := Deregister d n prev ++ [EUnlink n].
