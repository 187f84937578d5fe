(** The registry of modules. *)
From Verif Require Import Base CStrModel.

(** Heap.Mod 42-62 [ModuleDesc], [CmdDesc]; [mid] is the address.  Types and the procedure that enumerates pointers are left out.  The
    list Heap.modules, linked through next, is a list, and so is the list of commands of a module. *)
Record cmd := { cname : list Z; cproc : Z }.
Record modul := { mid : Z; mname : list Z; mref : Z; mcmds : list cmd }.
Definition ModNameLen : nat := 20.
Definition CmdNameLen : nat := 24.
(** Heap.Mod 131-147 [REGMOD]; the address of the new descriptor is given. *)
Definition REGMOD (name : list Z) (a : Z) (ms : list modul) : res (list modul) :=
  let* n := COPY name (repeat 0 ModNameLen) in
  Ok ({| mid := a; mname := n; mref := 0; mcmds := [] |} :: ms).
(** Heap.Mod 184-186 [INCREF].  refcnt is a LONGINT of 32 bits.  A descriptor that is no longer in the list is not followed. *)
Fixpoint INCREF (a : Z) (ms : list modul) : res (list modul) :=
  match ms with
  | [] => Ok []
  | m :: r => if mid m =? a then let* k := chk 32 (mref m + 1) in Ok ({| mid := mid m; mname := mname m; mref := k; mcmds := mcmds m |} :: r)
              else let* r := INCREF a r in Ok (m :: r)
  end.
(** Heap.Mod 149-163 [FreeModule]: the result and the new list. *)
Fixpoint FreeModule (name : list Z) (ms : list modul) : res (Z * list modul) :=
  match ms with
  | [] => Ok (-1, [])
  | m :: r =>
      let* ne := str_rel RNeq (mname m) name in
      if ne then let* (v, r) := FreeModule name r in Ok (v, m :: r)
      else if mref m =? 0 then Ok (0, r) else Ok (mref m, m :: r)
  end.
(** Modules.Mod 226-235 [ThisMod]; res and resMsg are left out. *)
Fixpoint ThisMod (name : list Z) (ms : list modul) : res (option modul) :=
  match ms with [] => Ok None | m :: r => let* ne := str_rel RNeq (mname m) name in if ne then ThisMod name r else Ok (Some m) end.
(** Modules.Mod 248-263 [Free(name, FALSE)]: [res] and the new list. *)
Definition Free (name : list Z) (ms : list modul) : res (Z * list modul) :=
  let* (refcount, ms) := FreeModule name ms in Ok (if refcount =? 0 then 0 else 1, ms).
(** Heap.Mod 165-178 [REGCMD]. *)
Fixpoint REGCMD (a : Z) (name : list Z) (p : Z) (ms : list modul) : res (list modul) :=
  match ms with
  | [] => Ok []
  | m :: r => if mid m =? a then let* n := COPY name (repeat 0 CmdNameLen) in Ok ({| mid := mid m; mname := mname m; mref := mref m; mcmds := {| cname := n; cproc := p |} :: mcmds m |} :: r)
              else let* r := REGCMD a name p r in Ok (m :: r)
  end.
(** Modules.Mod 237-246 [ThisCommand]. *)
Fixpoint find_cmd (name : list Z) (cs : list cmd) : res (option Z) :=
  match cs with [] => Ok None | c :: r => let* ne := str_rel RNeq (cname c) name in if ne then find_cmd name r else Ok (Some (cproc c)) end.
Definition ThisCommand (m : modul) (name : list Z) : res (option Z) := find_cmd name (mcmds m).

(** What a program does with the registry.  [Load]: the initialisation of a module, SYSTEM.h 252-256 and 330: for each import
    __MODULE_IMPORT (the address of the imported module), then __REGMOD and one __REGCMD per command. *)
Inductive ev := Load (a : Z) (name : list Z) (imports : list Z) (cmds : list (list Z * Z)) | Unload (name : list Z).
Fixpoint increfs (is : list Z) (ms : list modul) : res (list modul) := match is with [] => Ok ms | i :: r => let* ms := INCREF i ms in increfs r ms end.
Fixpoint regcmds (a : Z) (cs : list (list Z * Z)) (ms : list modul) : res (list modul) := match cs with [] => Ok ms | (n, p) :: r => let* ms := REGCMD a n p ms in regcmds a r ms end.
Definition step (e : ev) (ms : list modul) : res (list modul) :=
  match e with
  | Load a name is cs => let* ms := increfs is ms in let* ms := REGMOD name a ms in regcmds a cs ms
  | Unload name => let* (_, ms) := Free name ms in Ok ms
  end.
Fixpoint run (es : list ev) (ms : list modul) : res (list modul) := match es with [] => Ok ms | e :: r => let* ms := step e ms in run r ms end.
