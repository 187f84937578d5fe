(** Type descriptors, type tests and type-bound procedures. *)
From Verif Require Import Base.

(** * The compiler's side *)
(** A record type as declared: its base type (an earlier declaration) and its type-bound procedures (name, address of the body), in the
    order of the compiler's tree.  Names and addresses are numbers.  Imported types are treated like earlier declarations. *)
Record tdecl := { d_base : option nat; d_procs : list (Z * Z) }.
(** OPT.Struct of a record type after OPV.AdrAndSize: BaseTyp, extlev, n (number of type-bound procedures), and the own procedures
    with their numbers (adr DIV 10000H). *)
Record tobj := { t_base : option nat; t_lev : Z; t_n : Z; t_procs : list (Z * Z * Z) }.
Fixpoint find_proc (name : Z) (l : list (Z * Z * Z)) : option Z :=
  match l with [] => None | (x, k, _) :: r => if x =? name then Some k else find_proc name r end.
(** OPT.Mod 455-468 [FindField].  The list has the latest type first; type number i is the one with i types after it.  The tree of one type
    is a list. *)
Fixpoint FindField (env : list tobj) (i : nat) (name : Z) : option Z :=
  match env with
  | [] => None
  | o :: r => if (i =? length r)%nat then match find_proc name (t_procs o) with Some k => Some k | None => match t_base o with Some b => FindField r b name | None => None end end
              else FindField r i name
  end.
Fixpoint get_obj (env : list tobj) (i : nat) : option tobj :=
  match env with [] => None | o :: r => if (i =? length r)%nat then Some o else get_obj r i end.
(** OPV.Mod 62-75 [GetTProcNum], for each procedure of the tree (Traverse, 97-128).  The number of procedures fits in 16 bits. *)
Fixpoint number (env : list tobj) (b : option nat) (ps : list (Z * Z)) (n : Z) : list (Z * Z * Z) * Z :=
  match ps with
  | [] => ([], n)
  | (name, body) :: r =>
      match match b with Some b => FindField env b name | None => None end with
      | Some k => let '(l, n) := number env b r n in ((name, k, body) :: l, n)
      | None => let '(l, m) := number env b r (n + 1) in ((name, n, body) :: l, m)
      end
  end.
(** OPP.Mod 99 (extlev) and OPV.Mod 77-83 [TraverseRecord]. *)
Definition compile1 (env : list tobj) (d : tdecl) : tobj :=
  let bo := match d_base d with Some b => get_obj env b | None => None end in
  let '(l, n) := number env (d_base d) (d_procs d) (match bo with Some o => t_n o | None => 0 end) in
  {| t_base := d_base d; t_lev := match bo with Some o => t_lev o + 1 | None => 0 end; t_n := n; t_procs := l |}.
Fixpoint compile (ds : list tdecl) (env : list tobj) : list tobj :=
  match ds with [] => env | d :: r => compile r (compile1 env d :: env) end.

(** * Run time *)
(** Memory in words of an ADDRESS.  A descriptor is known by the address t of its block size (xxx__typ); before it are
    reserved, basep[15..0], name (3 words), module, level, next, tag and tproc[m-1..0] (SYSTEM.h 294-313, addresses of 64 bits). *)
Definition wmem := Z -> Z.
Definition wupd (m : wmem) (a v : Z) : wmem := fun x => if x =? a then v else m x.
Definition BASEOFF : Z := 17.
Definition TPROC0OFF : Z := 25.
Definition EOM : Z := 1.
(** memcpy of [n] words. *)
Fixpoint wcopy (n : nat) (m : wmem) (d s : Z) : wmem := match n with O => m | S n => wcopy n (wupd m d (m s)) (d + 1) (s + 1) end.
(** SYSTEM.c 62-67 [SYSTEM_INHERIT], after the two subtractions. *)
Fixpoint inherit_loop (fuel : nat) (m : wmem) (t t0 : Z) : res wmem :=
  match fuel with O => Fuel | S f => if m t0 =? EOM then Ok m else inherit_loop f (wupd m t (m t0)) (t - 1) (t0 - 1) end.
Definition INHERIT (fuel : nat) (m : wmem) (t t0 : Z) : res wmem := inherit_loop fuel m (t - TPROC0OFF) (t0 - TPROC0OFF).
(** SYSTEM.h 321-329 [__INITYP(t, t0, level)].  [size] is sizeof the C structure; [modul] the module and [next] its list of types
    (Heap.REGTYP, Heap.Mod 180-182; the result has the new list). *)
Definition INITYP (fuel : nat) (size modul : Z) (t t0 level : Z) (s : wmem * Z) : res (wmem * Z) :=
  let '(m, next) := s in
  let m := wcopy (Z.to_nat level) m (t - BASEOFF) (t0 - BASEOFF) in
  let m := wupd m (t - BASEOFF + level) t in
  let m := wupd m (t - 21) modul in
  if negb (m t =? size) then Trap (-15) else
  let m := wupd m t ((m t + 5 * 8 - 1) / (4 * 8) * (4 * 8)) in
  let m := wupd m (t - 23) next in
  let* m := INHERIT fuel m t t0 in
  Ok (m, t - 23).
(** SYSTEM.h 332 [__INITBP], one for each procedure (OPC.Mod 309-323 InitTProcs). *)
Fixpoint init_procs (m : wmem) (t : Z) (ps : list (Z * Z * Z)) : wmem :=
  match ps with [] => m | (_, num, body) :: r => init_procs (wupd m (t - (TPROC0OFF + num)) body) t r end.
(** OPC.Mod 550-558 [InitTDesc] for type number [i] at address [T i]. *)
Definition init_type (fuel : nat) (T size : nat -> Z) (modul : Z) (i : nat) (o : tobj) (s : wmem * Z) : res (wmem * Z) :=
  let* q := INITYP fuel (size i) modul (T i) (match t_base o with Some b => T b | None => T i end) (t_lev o) s in
  let '(m, next) := q in Ok (init_procs m (T i) (t_procs o), next).
(** All types, in the order of their declaration. *)
Fixpoint init_types (fuel : nat) (T size : nat -> Z) (modul : Z) (env : list tobj) (s : wmem * Z) : res (wmem * Z) :=
  match env with [] => Ok s | o :: r => let* s := init_types fuel T size modul r s in init_type fuel T size modul (length r) o s end.
(** SYSTEM.h 235 [__IS(tag, typ, level)]. *)
Definition IS (m : wmem) (tag typ level : Z) : bool := m (tag - (BASEOFF - level)) =? typ.
(** SYSTEM.h 240-242 [__GUARDP], [__GUARDR]. *)
Definition GUARD (m : wmem) (tag typ level : Z) (p : Z) : res Z := if IS m tag typ level then Ok p else Trap (-5).
(** SYSTEM.h 333 [__SEND]: the address that is called. *)
Definition SEND (m : wmem) (tag num : Z) : Z := m (tag - (TPROC0OFF + num)).
(** SYSTEM.h 295-307 and 315 [__TDESC], [__TDFLDS]: the initial contents of a descriptor with n procedures (m = n+1). *)
Record fresh_desc (m : wmem) (t n size : Z) : Prop := {
  fd_eom : m (t - TPROC0OFF - n) = EOM;
  fd_proc : forall k, 0 <= k < n -> m (t - TPROC0OFF - k) = 0;
  fd_base : forall l, 0 <= l < 16 -> m (t - BASEOFF + l) = 0;
  fd_res : m (t - 1) = 0;
  fd_size : m t = size
}.
