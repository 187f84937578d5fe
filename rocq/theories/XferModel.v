(** Transfer of whole values in the generated C: assignment statements
    (src/compiler/OPB.Mod 1480-1501, src/compiler/OPV.Mod 383-391, 792-826) and the passing of
    parameters (src/compiler/OPV.Mod 211-227, 280-296, 404-460, src/compiler/OPC.Mod 961-1009,
    1217-1229), with the macros of src/runtime/SYSTEM.h 120, 163-164, 189, 243-244.
    Which assignments and arguments are accepted is the subject of [AsgModel]. *)
From Verif Require Import Base AsgModel.

(** Memory of the C program: every object (variable, heap block, literal, copy) is a block of
    bytes.  A location is a block and an offset in it. *)
Notation mem := (list (list Z)).
Notation loc := (nat * Z)%type.
Definition inside (m : mem) (p : loc) (n : Z) : bool :=
  match nth_error m (fst p) with
  | None => false
  | Some b => (0 <=? snd p) && (0 <=? n) && (snd p + n <=? Z.of_nat (length b))
  end.
(** Reading or writing outside of a block is undefined. *)
Definition load (m : mem) (p : loc) (n : Z) : res (list Z) :=
  if inside m p n
  then Ok (firstn (Z.to_nat n) (skipn (Z.to_nat (snd p)) (nth (fst p) m [])))
  else UB.
Fixpoint upd (m : mem) (i : nat) (b : list Z) : mem :=
  match m, i with
  | [], _ => []
  | _ :: m', O => b :: m'
  | a :: m', Datatypes.S i' => a :: upd m' i' b
  end.
Definition store (m : mem) (p : loc) (bs : list Z) : res mem :=
  if inside m p (Z.of_nat (length bs))
  then let b := nth (fst p) m [] in
       let o := Z.to_nat (snd p) in
       Ok (upd m (fst p) (firstn o b ++ bs ++ skipn (o + length bs) b))
  else UB.
(** Do the [n] bytes at [p] and the [n] bytes at [q] have one in common? *)
Definition overlap (p q : loc) (n : Z) : bool :=
  Nat.eqb (fst p) (fst q) && (snd p <? snd q + n) && (snd q <? snd p + n).
(** The C function [memcpy] (SYSTEM.h 189, [__MOVE]): a negative size becomes a huge [size_t];
    overlapping objects are undefined. *)
Definition memcpy (m : mem) (dst src : loc) (n : Z) : res mem :=
  if (n <? 0) || overlap dst src n then UB
  else let* bs := load m src n in store m dst bs.
(** A C assignment of [n] bytes: the objects may coincide exactly, but not partly. *)
Definition cassign (m : mem) (dst src : loc) (n : Z) : res mem :=
  if negb (snd dst =? snd src) && overlap dst src n then UB
  else let* bs := load m src n in store m dst bs.

Section WithTable.
Variable E : env.
(** [typ^.strobj # NIL]: the type has a name. *)
Variable named : tid -> bool.
(** Option -t, [typchk IN Options]: on unless switched off. *)
Variable typchk : bool.
Notation S t := (str E t).

(** A designator, as far as the code for transfers looks at it: [DObj c t lens tag] is a node of
    class [c] (Nvar, Nvarpar, Nfield or Nderef) and type [t]; [lens] are the lengths that go with
    it when its type is an open array: [x__len], [x__len1], ... of a parameter or [p->len[0]],
    [p->len[1]], ... of a heap array; [tag] is the descriptor that goes with it: [x__typ] of a VAR
    parameter, the one stored before the object for Nderef.  [DIndex t d] is an indexed designator
    of type [t] and [DGuard t d] is d(T).  Simplified: in p(T)^ the guard is left out, as OPB.Mod
    1488-1490 does for the left side of an assignment. *)
Inductive dsg :=
  | DObj (c : Z) (t : tid) (lens : list Z) (tag : tid)
  | DIndex (t : tid) (d : dsg)
  | DGuard (t : tid) (d : dsg).
Definition Nvarpar := 1.
Definition Nfield := 2.
Definition Nderef := 3.
Definition Nindex := 4.
Definition dtyp (d : dsg) : tid :=
  match d with DObj _ t _ _ => t | DIndex t _ => t | DGuard t _ => t end.
Definition dclass (d : dsg) : Z :=
  match d with DObj c _ _ _ => c | DIndex _ _ => Nindex | DGuard _ _ => Nguard end.

(** [WHILE d > 0 DO array := array^.BaseTyp; DEC(d) END] (OPC.Mod 1221-1222, OPV.Mod 217-218). *)
Fixpoint component (t : tid) (d : nat) : res tid :=
  match d with
  | O => Ok t
  | Datatypes.S d' => let* b := deref (baseof E t) in component b d'
  end.
(** OPC.Mod 1217-1229, and the same with [->len[]] in OPV.Mod 216-223. *)
Definition obj_len (lens : list Z) (t : tid) (dim : nat) : res Z :=
  let* a := component t dim in
  if is_comp (fcomp E a) DynArr then
    match nth_error lens dim with Some l => Ok l | None => UB end
  else Ok (sn (S a)).
(** OPV.Mod 211-227. *)
Fixpoint Len (d : dsg) (dim : nat) : res Z :=
  match d with
  | DIndex t d' => if is_comp (fcomp E t) DynArr then Len d' (Datatypes.S dim) else obj_len [] t dim
  | DObj _ t lens _ => obj_len lens t dim
  | DGuard t _ => obj_len [] t dim
  end.
(** OPV.Mod 280-296: the descriptor passed for a record. *)
Fixpoint TypeOf (d : dsg) : tid :=
  match d with
  | DObj c t _ tag => if (c =? Nderef) || (c =? Nvarpar) then tag else t
  | DIndex t _ => t
  | DGuard _ d' => TypeOf d'
  end.

(** * Assignment *)

(** The right side: its node, and the designator it is when it is one. *)
Record rhs := { rnode : node; rdsg : dsg }.
(** The C statement written for an assignment.  [ASet g lt rt]: "l = r" where the C type of l is
    [lt] and the C type of r, after a cast if there is one, is [rt]; with [g = Some t] the statement
    starts with [__GUARDEQR] or [__GUARDEQP] for type [t]. *)
Inductive acode :=
  | AZero                              (* l[0] = 0x00 *)
  | AMove (n : Z)                      (* __MOVE(r, l, n) *)
  | AMoveX (len elem bound : Z)        (* __MOVE(r, l, __X(len * elem, bound)) *)
  | ASet (g : option tid) (lt rt : tid).

(** OPB.Mod 1486-1493: the designator inside the equality guard, if one is put around the left
    side. *)
Definition eguard (x : dsg) : option dsg :=
  if is_comp (fcomp E (dtyp x)) Record_ then
    let z := match x with DGuard _ d => d | _ => x end in
    if named (dtyp x) && ((dclass z =? Nderef) || (dclass z =? Nvarpar)) then Some z else None
  else None.
(** OPB.Mod 1494-1498 and OPV.Mod 792-826 with the left side written by OPV.Mod 383-391.  An [ASSERT]
    that fails is a trap.  The C type of a left side under a guard is the type of the designator in
    it: the macros end in [*(p)], where p is declared with the type of the parameter, and in
    [*((typ* )p)], where typ is printed from [n^.left^.typ].  The casts of pointers are left out
    ([rt = lt] stands for them). *)
Definition gen_assign (x : dsg) (y : rhs) : res acode :=
  let n := rnode y in
  let lt := dtyp x in
  if is_comp (fcomp E lt) Array && isbase E lt (chartyp E) && is_form (fform E (ntyp n)) FString
     && (nlen n =? 1) then Ok AZero
  else if is_comp (fcomp E lt) Array then
    if Nat.eqb (ntyp n) (stringtyp E) then Ok (AMove (nlen n))
    else if is_comp (fcomp E (ntyp n)) DynArr then
      let* b := deref (baseof E (ntyp n)) in
      let* l := obj_len (match rdsg y with DObj _ _ lens _ => lens | _ => [] end) (ntyp n) 0 in
      Ok (AMoveX l (ssize (S b)) (ssize (S lt) + 1))
    else if is_comp (fcomp E (ntyp n)) Array && (ssize (S (ntyp n)) <=? ssize (S lt)) then
      Ok (AMove (ssize (S (ntyp n))))
    else Trap 0
  else
    let rt := if is_comp (fcomp E lt) Record_ && negb (Nat.eqb lt (ntyp n)) then lt else
              if is_comp (fcomp E lt) Record_ then ntyp n else lt in
    match eguard x with
    | Some z => Ok (ASet (if typchk then Some (dtyp z) else None) (dtyp z) rt)
    | None => Ok (ASet None lt rt)
    end.
(** C accepts "l = r" for structures only when the types are the same. *)
Definition compiles (c : acode) : bool :=
  match c with ASet _ lt rt => Nat.eqb lt rt | _ => true end.

(** Running the statement.  [ev] evaluates the left designator (location, descriptor that goes with
    it) and may change memory when it contains function calls; the guard macros of SYSTEM.h 243-244
    contain their argument twice.  The right side is at [src]. *)
Definition run_assign (ev : mem -> res (loc * tid * mem)) (src : loc) (c : acode) (m : mem) : res mem :=
  match c with
  | AZero => let* (l, m1) := ev m in store m1 (fst l) [0]
  | AMove n => let* (l, m1) := ev m in memcpy m1 (fst l) src n
  | AMoveX len elem bound =>
      let* (l, m1) := ev m in
      if len * elem <? bound then memcpy m1 (fst l) src (len * elem) else Trap (-2)
  | ASet None lt _ => let* (l, m1) := ev m in cassign m1 (fst l) src (ssize (S lt))
  | ASet (Some t) lt _ =>
      let* (l, m1) := ev m in
      if Nat.eqb (snd l) t then
        let* (l', m2) := ev m1 in cassign m2 (fst l') src (ssize (S lt))
      else Trap (-6)
  end.

(** * Parameters *)

(** An actual parameter: its node, the designator it is unless it is a constant, and where its value
    is. *)
Record actual := { anode : node; adsg : dsg; aloc : loc }.
(** What the callee has: where the parameter is, the lengths and the descriptor that go with it. *)
Record binding := { ploc : loc; plens : list Z; ptag : option tid }.

(** OPV.Mod 446-452: the product written for an array of bytes. *)
Fixpoint byte_len (fuel : nat) (d : dsg) (aptyp : tid) (dim : nat) : res Z :=
  match fuel with
  | O => Fuel
  | Datatypes.S k =>
      if is_comp (fcomp E aptyp) DynArr then
        let* l := Len d dim in
        let* b := deref (baseof E aptyp) in
        let* r := byte_len k d b (Datatypes.S dim) in
        Ok (l * r)
      else Ok (ssize (S aptyp))
  end.
(** OPV.Mod 437-453: the lengths written for an open array parameter. *)
Fixpoint len_args (fuel : nat) (d : dsg) (typ aptyp : tid) (dim : nat) : res (list Z) :=
  match fuel with
  | O => Fuel
  | Datatypes.S k =>
      if is_comp (fcomp E typ) DynArr then
        let* fb := deref (baseof E typ) in
        if is_form (fform E fb) FByte then
          let* l := byte_len k d aptyp dim in Ok [l]
        else
          let* l := Len d dim in
          let* ab := deref (baseof E aptyp) in
          let* r := len_args k d fb ab (Datatypes.S dim) in
          Ok (l :: r)
      else Ok []
  end.
(** OPV.Mod 404-460 for one parameter: the lengths and the descriptor passed with it. *)
Definition pass_lens (fuel : nat) (a : actual) (fp : param) : res (list Z) :=
  if is_comp (fcomp E (ptyp fp)) DynArr then
    if nclass (anode a) =? Nconst then Ok [nlen (anode a)]
    else len_args fuel (adsg a) (ptyp fp) (ntyp (anode a)) 0
  else Ok [].
Definition pass_tag (a : actual) (fp : param) : option tid :=
  if is_comp (fcomp E (ptyp fp)) Record_ && (pmode fp =? mVarPar) then Some (TypeOf (adsg a)) else None.
(** An argument that is a structure must have the type of the parameter: OPV.Mod 412-424 writes no
    cast for records passed by value. *)
Definition arg_compiles (a : actual) (fp : param) : bool :=
  if is_comp (fcomp E (ptyp fp)) Record_ && negb (pmode fp =? mVarPar)
  then Nat.eqb (ptyp fp) (ntyp (anode a)) else true.

(** OPC.Mod 993-1003: the element type at the end of the loop, and the number of lengths multiplied. *)
Fixpoint innermost (fuel : nat) (t : tid) : res (tid * nat) :=
  match fuel with
  | O => Fuel
  | Datatypes.S k =>
      if is_comp (fcomp E t) DynArr then
        let* b := deref (baseof E t) in
        let* (e, n) := innermost k b in Ok (e, Datatypes.S n)
      else Ok (t, O)
  end.
Definition prod (l : list Z) : Z := fold_right Z.mul 1 l.
(** The bytes a parameter passed by value takes: [sizeof(t)] of SYSTEM.h 163 for a fixed array
    (OPC.Mod 988-991), [l*sizeof(t)] of SYSTEM.h 164 for an open array, the size of the C parameter
    for other types. *)
Definition copy_size (fuel : nat) (fp : param) (lens : list Z) : res Z :=
  if is_comp (fcomp E (ptyp fp)) DynArr then
    let* (e, n) := innermost fuel (ptyp fp) in
    Ok (prod (firstn n lens) * ssize (S e))
  else Ok (ssize (S (ptyp fp))).
(** Call and prologue for one parameter: a VAR parameter is the address of the actual; for a value
    parameter the call (scalars, records) or the prologue (arrays) makes a copy in storage of its
    own.  Left out: numeric conversions of scalars; the release [__DEL] is empty. *)
Definition pass (fuel : nat) (m : mem) (a : actual) (fp : param) : res (mem * binding) :=
  let* lens := pass_lens fuel a fp in
  if pmode fp =? mVarPar then
    Ok (m, {| ploc := aloc a; plens := lens; ptag := pass_tag a fp |})
  else
    let* n := copy_size fuel fp lens in
    let* bs := load m (aloc a) n in
    Ok (m ++ [bs], {| ploc := (length m, 0); plens := lens; ptag := pass_tag a fp |}).
(** The parameter as a designator in the callee. *)
Definition param_dsg (fp : param) (b : binding) : dsg :=
  DObj (if pmode fp =? mVarPar then Nvarpar else Nvar) (ptyp fp) (plens b)
       (match ptag b with Some t => t | None => ptyp fp end).
End WithTable.
