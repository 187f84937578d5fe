(** Designators: OPB.Mod DeRef (159-174), Index (176-191), Field (193-202), TypTest (204-237), NotVar (155-157), and the loop of OPP.Mod selector
    (292-347), with OPT.Mod FindField (455-468) over the type descriptors of AsgModel.  Left out: type-bound procedures as selectors (the members
    here are fields) and the mark [pbused].  The second part is the evaluation of a designator by the generated code: OPV.Mod design (309-396) and
    Index (298-307), TypeOf (280-296) and the operator IS (496-502), with the checks of SYSTEM.h 119-120 and 235-242. *)
From Verif Require Import Base AsgModel OperModel.

Definition name := Z.
(** A field: type, and whether it was exported read-only by another module ([vis = externalR] and [mnolev < 0]). *)
Record field := mkf { fty : tid; frd : bool }.
(** A designator: class and number of a variable (or another expression), and the nodes that selectors build; [ro] is the attribute [readonly].
    The field node has the type that declares the field; the index has a mark for OPV.Mod SideEffects, and its value is the one at run time. *)
Inductive des :=
  | DVar (cls : Z) (v : nat) (t : tid) (ro : bool)
  | DDeref (x : des) (t : tid)
  | DIndex (x : des) (y : opnd) (se : bool) (t : tid) (ro : bool)
  | DField (x : des) (o : tid) (n : name) (t : tid) (ro : bool)
  | DGuard (x : des) (t : tid) (ro : bool).
(** The node classes OPT.Mod 62-67. *)
Definition Nvar : Z := 0.
Definition Nvarpar : Z := 1.
Definition cls_of (x : des) : Z :=
  match x with DVar c _ _ _ => c | DField _ _ _ _ _ => 2 | DDeref _ _ => 3 | DIndex _ _ _ _ _ => 4 | DGuard _ _ _ => 5 end.
Definition ty_of (x : des) : tid :=
  match x with DVar _ _ t _ => t | DField _ _ _ t _ => t | DDeref _ t => t | DIndex _ _ _ t _ => t | DGuard _ t _ => t end.
Definition ro_of (x : des) : bool :=
  match x with DVar _ _ _ r => r | DField _ _ _ _ r => r | DDeref _ _ => false | DIndex _ _ _ _ r => r | DGuard _ _ r => r end.
(** The assignment [x.typ := t]. *)
Definition retype (x : des) (t : tid) : des :=
  match x with
  | DVar c v _ r => DVar c v t r | DField x o n _ r => DField x o n t r | DDeref x _ => DDeref x t
  | DIndex x y s _ r => DIndex x y s t r | DGuard x _ r => DGuard x t r
  end.
(** One selector in the text: an index, a name, an arrow, or a type in parentheses. *)
Inductive sel := SIndex (y : opnd) (se : bool) | SName (n : name) | SArrow | SGuard (t : tid).
(** A type test: a node, or the constant TRUE. *)
Inductive test := TNode (x : des) (t : tid) | TTrue (x : des).

Section WithTable.
Variable E : env.
Notation S t := (str E t).
Variable own : tid -> name -> option field.

(** OPT.Mod 455-468. *)
Fixpoint FindField (fuel : nat) (t : option tid) (n : name) : res (option (tid * field)) :=
  match t with
  | None => Ok None
  | Some t => match own t n with
              | Some f => Ok (Some (t, f))
              | None => match fuel with O => Fuel | Datatypes.S k => FindField k (sbase (S t)) n end
              end
  end.
(** OPB.Mod 159-174. *)
Definition DeRef (x : des) : res (des * list Z) :=
  if cls_of x >=? Nconst then Ok (x, [78])
  else if is_form (sform (S (ty_of x))) FPointer then
    let* b := deref (sbase (S (ty_of x))) in
    Ok (DDeref x b, if Nat.eqb (ty_of x) (sysptrtyp E) then [57] else [])
  else Ok (x, [84]).
(** OPB.Mod 176-191. *)
Definition Index (x : des) (y : opnd) (se : bool) : res (des * list Z) :=
  let e1 := if cls_of x >=? Nconst then [79] else if negb (is_form (sform (S (oty y))) FInt) || not_value y then [80] else [] in
  let* (t, e2) :=
    if is_comp (scomp (S (ty_of x))) Array then
      let* b := deref (sbase (S (ty_of x))) in
      Ok (b, if is_const y && ((oiv y <? 0) || (oiv y >=? sn (S (ty_of x)))) then [81] else [])
    else if is_comp (scomp (S (ty_of x))) DynArr then
      let* b := deref (sbase (S (ty_of x))) in
      Ok (b, if is_const y && (oiv y <? 0) then [81] else [])
    else Ok (undftyp E, [82]) in
  Ok (DIndex x y se t (ro_of x), e1 ++ e2).
(** OPB.Mod 193-202. *)
Definition Field (x : des) (f : option (tid * field)) (n : name) : des * list Z :=
  let e1 := if cls_of x >=? Nconst then [77] else [] in
  match f with
  | Some (o, f) => (DField x o n (fty f) (ro_of x || frd f), e1)
  | None => (retype x (undftyp E), e1 ++ [83])
  end.
(** OPB.Mod 209, 211: the walks over the base types. *)
Fixpoint walk (fuel : nat) (t : option tid) (goal : tid) : res (option tid) :=
  match t with
  | None => Ok None
  | Some a => if Nat.eqb a goal || Nat.eqb a (undftyp E) then Ok (Some a)
              else match fuel with O => Fuel | Datatypes.S k => walk k (sbase (S a)) goal end
  end.
Definition is_some (t : option tid) (a : tid) : bool := match t with Some b => Nat.eqb b a | None => false end.
(** OPB.Mod 206-226: the error, or whether a node for the test is needed. *)
Definition GTT (fuel : nat) (x : des) (t0 t1 : tid) (guard : bool) : res (list Z * bool) :=
  let* a := walk fuel (Some t0) t1 in
  if negb (is_some a t1) then
    let* b := walk fuel (Some t1) t0 in
    Ok (if is_some b t0 || is_form (sform (S t0)) FUndef then ([], true) else ([85], false))
  else if negb (Nat.eqb t0 t1) then Ok ([85], false)
  else Ok ([], negb guard && (cls_of x =? 5)).
(** OPB.Mod 228-236: errors and whether a node is needed. *)
Definition TypTest (fuel : nat) (x : des) (t : tid) (guard : bool) : res (list Z * bool) :=
  if cls_of x >=? Nconst then Ok ([112], false)
  else if is_form (sform (S (ty_of x))) FPointer then
    let* b := deref (sbase (S (ty_of x))) in
    if negb (is_comp (scomp (S b)) Record_) && negb (Nat.eqb (ty_of x) (sysptrtyp E)) then Ok ([85], false)
    else if is_form (sform (S t)) FPointer then
      let* d := deref (sbase (S t)) in GTT fuel x b d guard
    else Ok ([86], false)
  else if is_comp (scomp (S (ty_of x))) Record_ && (cls_of x =? Nvarpar) && is_comp (scomp (S t)) Record_ then
    GTT fuel x (ty_of x) t guard
  else Ok ([87], false).
Definition Guard (fuel : nat) (x : des) (t : tid) : res (des * list Z) :=
  let* (e, node) := TypTest fuel x t true in
  Ok (if node then DGuard x t (ro_of x) else retype x t, e).
Definition Is (fuel : nat) (x : des) (t : tid) : res (test * list Z) :=
  let* (e, node) := TypTest fuel x t false in
  Ok (if node then TNode x t else TTrue x, e).

(** OPP.Mod 298, 306: a pointer is followed before an index or a name. *)
Definition implied (x : des) : res (des * list Z) :=
  if is_form (sform (S (ty_of x))) FPointer then DeRef x else Ok (x, []).
(** OPP.Mod 295-346: one round of the loop.  A parenthesis after a procedure or after something that is not a designator is no selector: the
    code leaves the loop, here the error -1. *)
Definition select (fuel : nat) (x : des) (s : sel) : res (des * list Z) :=
  match s with
  | SIndex y se => let* (x, e) := implied x in let* (x, e') := Index x y se in Ok (x, e ++ e')
  | SName n =>
      let* (x, e) := implied x in
      if is_comp (scomp (S (ty_of x))) Record_ then
        let* f := FindField fuel (Some (ty_of x)) n in
        let '(x, e') := Field x f n in Ok (x, e ++ e')
      else Ok (x, e ++ [53])
  | SArrow => DeRef x
  | SGuard t =>
      if (cls_of x <? Nconst) && negb (is_form (sform (S (ty_of x))) FProc) then Guard fuel x t else Ok (x, [-1])
  end.
Fixpoint selectors (fuel : nat) (x : des) (ss : list sel) : res (des * list Z) :=
  match ss with
  | [] => Ok (x, [])
  | s :: ss => let* (x, e) := select fuel x s in let* (x, e') := selectors fuel x ss in Ok (x, e ++ e')
  end.

(** *** Run time *)
(** A storage location: an object (a variable or a block of the heap) and the way from its start; a field is named with the type that declares
    it. *)
Inductive step := PField (o : tid) (n : name) | PElem (i : Z).
Record loc := mkl { root : nat; path : list step }.
Definition sub (l : loc) (p : step) : loc := mkl (root l) (path l ++ [p]).
(** The state: where the variables (and the variables passed for parameters) are, the type of each object, what the pointers in memory point to,
    the run-time lengths of open arrays, and the type descriptor that is passed with a record parameter. *)
Record mem := { vloc : nat -> loc; dyn : nat -> tid; ptr : loc -> option nat; mlen : loc -> Z; tag : nat -> tid }.
(** __IS: decides extension (C08). *)
Variable isext : tid -> tid -> bool.
Variable M : mem.

(** SYSTEM.h 119-120 and OPV.Mod 299-306: the check of an index against the length [n]; [__X] compares signed numbers.  Trap -2. *)
Definition check_index (y : opnd) (se dynarr : bool) (n : Z) : res Z :=
  if is_const y && ((oiv y =? 0) || negb dynarr) then Ok (oiv y)
  else if se then (if (0 <=? oiv y) && (oiv y <? n) then Ok (oiv y) else Trap 2)
  else if oiv y <? n then Ok (oiv y) else Trap 2.
(** OPV.Mod 309-396 with the checks for indices and types (default).  Following NIL stops the program with a memory fault (here trap 11).
    Guards of records are on parameters only (others: unhandled). *)
Fixpoint eval (x : des) : res loc :=
  match x with
  | DVar _ v _ _ => Ok (vloc M v)
  | DDeref x _ => let* l := eval x in match ptr M l with None => Trap 11 | Some o => Ok (mkl o []) end
  | DIndex x y se _ _ =>
      let* l := eval x in
      let dynarr := is_comp (scomp (S (ty_of x))) DynArr in
      let* i := check_index y se dynarr (if dynarr then mlen M l else sn (S (ty_of x))) in
      Ok (sub l (PElem i))
  | DField x o n _ _ => let* l := eval x in Ok (sub l (PField o n))
  | DGuard x t _ =>
      let* l := eval x in
      if is_form (sform (S t)) FPointer then
        match ptr M l with
        | None => Trap 11
        | Some o => let* b := deref (sbase (S t)) in if isext (dyn M o) b then Ok l else Trap 5
        end
      else match x with DVar _ v _ _ => if isext (tag M v) t then Ok l else Trap 5 | _ => UB end
  end.
(** OPV.Mod 496-502 (the operator IS). *)
Definition eval_test (x : test) : res bool :=
  match x with
  | TTrue _ => Ok true
  | TNode x t =>
      if is_form (sform (S t)) FPointer then
        let* l := eval x in
        match ptr M l with
        | None => Trap 11
        | Some o => let* b := deref (sbase (S t)) in Ok (isext (dyn M o) b)
        end
      else match x with DVar _ v _ _ => Ok (isext (tag M v) t) | _ => UB end
  end.
(** OPV.Mod 280-296: the type descriptor passed with an argument for a record parameter. *)
Fixpoint TypeOf (x : des) : res tid :=
  match x with
  | DVar c v t _ => if c =? Nvarpar then Ok (tag M v) else Ok t
  | DField _ _ _ t _ => Ok t
  | DIndex _ _ _ t _ => Ok t
  | DDeref x _ => let* l := eval x in match ptr M l with None => Trap 11 | Some o => Ok (dyn M o) end
  | DGuard x _ _ => TypeOf x
  end.
End WithTable.
