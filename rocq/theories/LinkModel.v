(** From the import lists to the command that links a program: src/compiler/OPT.Mod 402-410, 750-762, 1043-1074, 1269-1295 (the lists of modules to link),
    src/compiler/Compiler.Mod 30-40, 84-115 (which object files are linked) and src/compiler/extTools.Mod (the commands).
    Strings are their characters before 0X; a string variable of n characters holds at most n of them. *)
From Verif Require Import Base.

Definition str := list Z.
Definition str_eqb (a b : str) : bool := if list_eq_dec Z.eq_dec a b then true else false.
(** Strings.Mod 42-48 [Append] into a variable of cap characters (its effect is C28), and COPY (C07). *)
Definition Append (cap : nat) (extra dest : str) : str := firstn cap (dest ++ extra).
Definition COPY (cap : nat) (s : str) : str := firstn (cap - 1) s.

(** The symbol files in the current directory and those of the libraries, reduced to their lists of modules to link, and the object files in the current directory.
    The current directory is searched first (C57). *)
Record world := { lsym : str -> option (list str); libsym : str -> option (list str); obj : str -> bool }.
Definition found (w : world) (m : str) : option (list str) := match lsym w m with Some l => Some l | None => libsym w m end.

(** OPT.Mod 750-762 [InLinks]: new names come to the front. *)
Fixpoint InLinks (names links : list str) : list str :=
  match names with
  | [] => links
  | n :: names => InLinks names (if existsb (fun l => str_eqb l n) links then links else n :: links)
  end.
(** OPT.Mod 1043-1070 [Import] for each module of the import list (SYSTEM has no symbol file and is left out); None: error 152. *)
Fixpoint Imports (w : world) (imports links : list str) : option (list str) :=
  match imports with
  | [] => Some links
  | i :: imports => match found w i with None => None | Some ls => Imports w imports (InLinks ls links) end
  end.
(** OPT.Mod 409 [Init] begins with the module itself; OPT.Mod 1273 [Export] reads the old symbol file of the module, unless a new one is forced. *)
Definition Links (w : world) (force : bool) (m : str) (imports : list str) : option (list str) :=
  match Imports w imports [m] with
  | None => None
  | Some links => Some (if force then links else match found w m with Some old => InLinks old links | None => links end)
  end.
(** One module compiled without errors; [changed]: what it exports differs from the old symbol file.  OPT.Mod 1282-1287, Compiler.Mod 24-37: the new symbol file is
    registered if there was none (or one was forced) or if something exported differs; that of a main program is deleted.  The object file is made by Assemble. *)
Definition Compile (w : world) (force changed main : bool) (m : str) (imports : list str) : option (world * list str) :=
  match Links w force m imports with
  | None => None
  | Some links =>
    let set := fun v => {| lsym := fun x => if str_eqb x m then v else lsym w x; libsym := libsym w; obj := fun x => if str_eqb x m then negb main else obj w x |} in
    let present := negb force && match found w m with Some _ => true | None => false end in
    Some (if main then set None else if negb present || changed then set (Some links) else set (lsym w m), links)
  end.

(** Configuration.Mod as written by src/tools/make/configure.c 391-412. *)
Record conf := { compile : str; objext : str; objflag : str; linkflags : str; libspec : str; libext : str; staticLink : str; cname : str; darwin : bool }.
(** OPM.Mod 122-123, 336-345 and the environment variable CFLAGS (at most 4095 characters). *)
Record env := { InstallDir : str; ResourceDir : str; Model : str; CFLAGS : str }.

(** Compiler.Mod 84-115 [FindLocalObjectFiles] into a variable of 2048 characters; names of at most 59 characters fit fn. *)
Definition add_object (c : conf) (w : world) (objectnames : str) (l : str) : str :=
  match lsym w l with
  | Some _ =>
    if obj w l then Append 2048 (Append 64 (objext c) (COPY 64 l)) (Append 2048 [32] objectnames)
    else objectnames
  | None => objectnames
  end.
Definition FindLocalObjectFiles (c : conf) (w : world) (links : list str) : str := fold_left (add_object c w) links [].

Definition A (extra dest : str) : str := Append 4096 extra dest.
(** extTools.Mod 47-58 [InitialiseCompilerCommand]. *)
Definition InitialiseCompilerCommand (c : conf) (e : env) (additionalopts : str) : str :=
  let s := COPY 4096 (compile c) in
  let s := A [32; 45; 73; 32; 34] s in
  let s := A (ResourceDir e) s in
  let s := A [47; 105; 110; 99; 108; 117; 100; 101; 34; 32] s in
  let s := A additionalopts s in
  let s := A [32] s in
  let s := A (CFLAGS e) s in
  A [32] s.
(** extTools.Mod 10-44 [execute]: the result of system() becomes an INTEGER (Platformunix.Mod 217-218); the command is not rewritten (not MSC).
    Some code: Modules.Halt(code).  [sys] is the operating system. *)
Definition execute (sys : str -> Z) (cmd : str) : str * option Z :=
  let fullcmd := COPY 4096 cmd in
  let r := wrap_s 16 (sys fullcmd) in
  let status := r mod 128 in
  let exitcode := r / 256 in
  let exitcode := if exitcode >? 127 then exitcode - 256 else exitcode in
  (fullcmd, if r =? 0 then None else if status =? 0 then Some exitcode else Some status).
(** extTools.Mod 61-70 [Assemble]. *)
Definition Assemble (c : conf) (e : env) (sys : str -> Z) (moduleName : str) : str * option Z :=
  let cmd := InitialiseCompilerCommand c e [] in
  let cmd := A [45; 99; 32] cmd in
  let cmd := A moduleName cmd in
  let cmd := A [46; 99] cmd in
  execute sys cmd.
(** extTools.Mod 73-121 [LinkMain]: the commands executed, and how it ends. *)
Definition link_command (c : conf) (e : env) (moduleName : str) (statically : bool) (additionalopts : str) : str :=
  let cmd := InitialiseCompilerCommand c e additionalopts in
  let cmd := A moduleName cmd in
  let cmd := A [46; 99; 32] cmd in
  let cmd := if statically then
      if darwin c then A [46; 97] (A (Model e) (A [45; 79] (A (cname c) (A [47; 108; 105; 98; 47; 108; 105; 98] (A (InstallDir e) cmd)))))
      else A (staticLink c) cmd
    else cmd in
  let cmd := A (objflag c) cmd in
  let cmd := A moduleName cmd in
  if negb statically || negb (darwin c) then A (libext c) (A (Model e) (A [45; 79] (A (libspec c) (A [47; 108; 105; 98; 34] (A (InstallDir e) (A (linkflags c) cmd))))))
  else cmd.
Definition name_command (c : conf) (e : env) (moduleName : str) : str :=
  let cmd := [105; 110; 115; 116; 97; 108; 108; 95; 110; 97; 109; 101; 95; 116; 111; 111; 108; 32; 45; 99; 104; 97; 110; 103; 101; 32; 108; 105; 98] in
  let cmd := A (cname c) cmd in
  let cmd := A [45; 79] cmd in
  let cmd := A (Model e) cmd in
  let cmd := A [46; 100; 121; 108; 105; 98; 32; 34] cmd in
  let cmd := A (InstallDir e) cmd in
  let cmd := A [47; 108; 105; 98; 47; 108; 105; 98] cmd in
  let cmd := A (cname c) cmd in
  let cmd := A [45; 79] cmd in
  let cmd := A (Model e) cmd in
  let cmd := A [46; 100; 121; 108; 105; 98; 34; 32] cmd in
  A moduleName cmd.
Definition LinkMain (c : conf) (e : env) (sys : str -> Z) (moduleName : str) (statically : bool) (additionalopts : str) : list str * option Z :=
  match execute sys (link_command c e moduleName statically additionalopts) with
  | (c1, Some code) => ([c1], Some code)
  | (c1, None) =>
    if darwin c && negb statically then let '(c2, r) := execute sys (name_command c e moduleName) in ([c1; c2], r)
    else ([c1], None)
  end.
(** configure.c 46-63, 129-150: the values for Unix systems. *)
Definition unix (cc static name : str) (darwin : bool) : conf :=
  {| compile := cc; objext := [46; 111]; objflag := [32; 45; 111; 32]; linkflags := [32; 45; 76; 34]; libspec := [32; 45; 108] ++ name; libext := []; staticLink := static; cname := name; darwin := darwin |}.
(** Compiler.Mod 146-156: the main program compiled and linked. *)
Definition Main (c : conf) (e : env) (sys : str -> Z) (w : world) (force changed statically : bool) (m : str) (imports : list str) : option (list str * option Z) :=
  match Compile w force changed true m imports with
  | None => None
  | Some (w, links) => Some (LinkMain c e sys m statically (FindLocalObjectFiles c w links))
  end.
