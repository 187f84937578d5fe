(** Assignment and parameter compatibility: src/compiler/OPB.Mod 140-146, 155-157, 381-420,
    844-937, 1361-1384, 1404-1434, with the structure descriptors of src/compiler/OPT.Mod 60-124. *)
From Verif Require Import Base.

(** OPT.Mod 94-98: forms, in the order of their numbers. *)
Inductive form :=
  | FUndef | FByte | FBool | FChar | FInt | FReal | FLReal | FSet | FString
  | FNil | FNoTyp | FPointer | FProc | FComp.
Definition num (f : form) : Z :=
  match f with
  | FUndef => 0 | FByte => 1 | FBool => 2 | FChar => 3 | FInt => 4 | FReal => 5 | FLReal => 6
  | FSet => 7 | FString => 8 | FNil => 9 | FNoTyp => 10 | FPointer => 11 | FProc => 12 | FComp => 13
  end.
Definition is_form (f g : form) : bool := num f =? num g.
Definition between (a g b : form) : bool := (num a <=? num g) && (num g <=? num b).
(** OPT.Mod 102-103: composite forms. *)
Inductive cform := Basic | Array | DynArr | Record_.
Definition is_comp (c d : cform) : bool :=
  match c, d with
  | Basic, Basic | Array, Array | DynArr, DynArr | Record_, Record_ => true | _, _ => false
  end.

(** A structure is a heap object that is compared by address; the model names it by a number. *)
Definition tid := nat.
Bind Scope nat_scope with tid.
(** OPT.Mod 78-91 and the parameter objects on [link].  Kept: the fields the checks look at;
    [fields] stands for the record fields on [link] (their types, in order) and is used only by the
    specification. *)
Record param := { pmode : Z; pname : list Z; ptyp : tid }.
Record struct := {
  sform : form; scomp : cform; ssize : Z; sn : Z;
  sbase : option tid; slink : list param; sfields : list tid }.
(** All structures of a compilation, with the predeclared ones the checks name
    (OPT.Mod 160-163). *)
Record env := {
  str : tid -> struct;
  undftyp : tid; sysptrtyp : tid; chartyp : tid; bytetyp : tid; stringtyp : tid }.

(** OPT.Mod 120-124, 36-41: node classes and object modes used here. *)
Definition Nvar := 0.
Definition Nguard := 5.
Definition Nconst := 7.
Definition Ntype := 8.
Definition Nproc := 9.
Definition Nmop := 11.
Definition mVar := 1.
Definition mVarPar := 2.
Definition LProc := 6.
Definition XProc := 7.
Definition IProc := 10.
Record obj := { omode : Z; olev : Z; otyp : tid; olink : list param }.
(** A node: class, type, [nval] = the class of the operand when the node is [SYSTEM.VAL], read-only
    mark, the constant ([nch] = the value of a character constant, [nstr] = the characters of a
    string constant before its 0X, [nlen] = [intval2]) and the object of a procedure node. *)
Record node := {
  nclass : Z; nval : option Z; ntyp : tid; nreadonly : bool;
  nch : Z; nstr : list Z; nlen : Z; nobj : obj }.

Section WithTable.
Variable E : env.
Notation S t := (str E t).
Definition fform (t : tid) : form := sform (S t).
Definition fcomp (t : tid) : cform := scomp (S t).
(** Dereferencing NIL traps. *)
Definition deref (t : option tid) : res tid := match t with Some t => Ok t | None => Trap (-1) end.
Definition baseof (t : tid) : option tid := sbase (S t).

(** OPB.Mod 140-146. *)
Definition CharToString (n : node) : node :=
  {| nclass := nclass n; nval := nval n; ntyp := stringtyp E; nreadonly := nreadonly n;
     nch := 0;
     nstr := if nch n =? 0 then [] else [nch n];
     nlen := if nch n =? 0 then 1 else 2;
     nobj := nobj n |}.
(** OPB.Mod 155-157. *)
Definition NotVar (n : node) : bool :=
  (nclass n >=? Nconst) &&
  (negb (nclass n =? Nmop) || match nval n with None => true | Some c => c >=? Nconst end).

(** The loops [WHILE (q # p) & (q # NIL) & (q # undftyp) DO q := q^.BaseTyp END]
    (OPB.Mod 884, 922, 1375, 1415).  [fuel] bounds the number of steps. *)
Fixpoint walk (fuel : nat) (q : option tid) (p : tid) : res (option tid) :=
  match q with
  | None => Ok None
  | Some t =>
      if Nat.eqb t p || Nat.eqb t (undftyp E) then Ok q
      else match fuel with
           | O => Fuel
           | Datatypes.S k => walk k (baseof t) p
           end
  end.

(** OPB.Mod 387-389: open arrays are peeled off both types in parallel. *)
Fixpoint strip (fuel : nat) (ft at_ : tid) : res (tid * tid) :=
  if is_comp (fcomp ft) DynArr && is_comp (fcomp at_) DynArr then
    match fuel with
    | O => Fuel
    | Datatypes.S k =>
        let* f := deref (baseof ft) in
        let* a := deref (baseof at_) in
        strip k f a
    end
  else Ok (ft, at_).

(** OPB.Mod 381-404 (the errors reported, in order).  Every step of the loop and every recursive
    call uses one unit of [fuel]. *)
Fixpoint CheckParameters (fuel : nat) (fp ap : list param) (checkNames : bool) : res (list Z) :=
  match fuel with
  | O => Fuel
  | Datatypes.S k =>
      match fp, ap with
      | [], [] => Ok []
      | [], _ :: _ => Ok [116]
      | _ :: fp', [] =>
          let* e := CheckParameters k fp' [] checkNames in Ok (116 :: e)
      | f :: fp', a :: ap' =>
          let* r := strip k (ptyp f) (ptyp a) in
          let '(ft, at_) := r in
          let* e1 :=
            if Nat.eqb ft at_ then Ok []
            else if is_form (fform ft) FProc && is_form (fform at_) FProc then
              if (match baseof ft, baseof at_ with
                  | Some x, Some y => Nat.eqb x y | None, None => true | _, _ => false end)
              then CheckParameters k (slink (S ft)) (slink (S at_)) false
              else Ok [117]
            else Ok [115] in
          let e2 :=
            if negb (pmode f =? pmode a) ||
               (checkNames && negb (if list_eq_dec Z.eq_dec (pname f) (pname a) then true else false))
            then [115] else [] in
          let* e3 := CheckParameters k fp' ap' checkNames in
          Ok (e1 ++ e2 ++ e3)
      end
  end.

(** OPB.Mod 406-420.  The change of [mode] from LProc to XProc is left out. *)
Definition CheckProc (fuel : nat) (x : tid) (y : obj) : res (list Z) :=
  if (omode y =? XProc) || (omode y =? IProc) || (omode y =? LProc) then
    let e1 := if omode y =? LProc then if olev y =? 0 then [] else [73] else [] in
    let* e2 :=
      if match baseof x with Some b => Nat.eqb b (otyp y) | None => false end
      then CheckParameters fuel (slink (S x)) (olink y) false
      else Ok [117] in
    Ok (e1 ++ e2)
  else Ok [113].

(** Same base type (both may be NIL). *)
Definition samebase (x y : tid) : bool :=
  match baseof x, baseof y with
  | Some a, Some b => Nat.eqb a b | None, None => true | _, _ => false
  end.
Definition isbase (x : tid) (t : tid) : bool :=
  match baseof x with Some a => Nat.eqb a t | None => false end.

(** OPB.Mod 868-890, the cases [Pointer]. *)
Definition assign_pointer (fuel : nat) (x y : tid) : res (list Z) :=
  let g := fform y in
  if Nat.eqb x y || is_form g FNil || (Nat.eqb x (sysptrtyp E) && is_form g FPointer) then Ok []
  else if is_form g FPointer then
    let* p := deref (baseof x) in
    let* q := deref (baseof y) in
    if is_comp (fcomp p) Record_ && is_comp (fcomp q) Record_ then
      let* r := walk fuel (Some q) p in
      Ok (match r with None => [113] | Some _ => [] end)
    else Ok [113]
  else Ok [113].

(** OPB.Mod 897-919, the case [Array]; [n] is the node after [CharToString]. *)
Definition assign_array (x : tid) (n : node) : res (list Z) :=
  let y := ntyp n in
  if Nat.eqb x y then Ok []
  else if is_comp (fcomp y) Array && samebase y x && (sn (S y) <=? sn (S x)) then Ok []
  else if is_comp (fcomp y) DynArr && samebase y x then Ok [113]
  else if isbase x (chartyp E) then
    if is_form (fform y) FString then
      if nlen n >? sn (S x) then Ok [114] else Ok []
    else Ok [113]
  else Ok [113].

(** OPB.Mod 920-928, the case [Record]. *)
Definition assign_record (fuel : nat) (x y : tid) : res (list Z) :=
  if Nat.eqb x y then Ok []
  else if is_comp (fcomp y) Record_ then
    let* r := walk fuel (baseof y) x in
    Ok (match r with None => [113] | Some _ => [] end)
  else Ok [113].

(** OPB.Mod 844-937.  The result is the list of errors and the node, which is changed for a
    character constant assigned to an array.  Left out: [pvused] and the final conversion of a
    numeric constant to a real type (934-936), which reports its own errors. *)
Definition CheckAssign (fuel : nat) (x : tid) (yn : node) : res (list Z * node) :=
  let y := ntyp yn in
  let f := fform x in
  let g := fform y in
  let e0 :=
    if (nclass yn =? Ntype) || ((nclass yn =? Nproc) && negb (is_form f FProc)) then [126] else [] in
  let yn' :=
    if is_form f FComp && is_comp (fcomp x) Array && (nclass yn =? Nconst) && is_form g FChar
    then CharToString yn else yn in
  let* e :=
    match f with
    | FUndef | FString => Ok []
    | FByte =>
        Ok (if (is_form g FByte || is_form g FChar || is_form g FInt) && (ssize (S y) =? 1)
            then [] else [113])
    | FBool | FChar => Ok (if is_form g f then [] else [113])
    | FInt | FSet => Ok (if negb (is_form g f) || (ssize (S x) <? ssize (S y)) then [113] else [])
    | FReal => Ok (if between FInt g FReal then [] else [113])
    | FLReal => Ok (if between FInt g FLReal then [] else [113])
    | FPointer => assign_pointer fuel x y
    | FProc =>
        if nclass yn =? Nproc then CheckProc fuel x (nobj yn)
        else Ok (if Nat.eqb x y || is_form g FNil then [] else [113])
    | FNoTyp | FNil => Ok [113]
    | FComp =>
        match fcomp x with
        | Array => assign_array x yn'
        | Record_ => assign_record fuel x y
        | _ => Ok [113]
        end
    end in
  Ok (e0 ++ e, yn').

(** OPB.Mod 1361-1384.  The message -301 for ARRAY OF SYSTEM.BYTE is a warning and is left out. *)
Fixpoint DynArrParCheck (fuel : nat) (ftyp atyp : tid) (fvarpar : bool) : res (list Z) :=
  match fuel with
  | O => Fuel
  | Datatypes.S k =>
      let f := fcomp atyp in
      let* ft := deref (baseof ftyp) in
      if fvarpar && Nat.eqb ft (bytetyp E) then Ok []
      else if is_comp f Array || is_comp f DynArr then
        let* at_ := deref (baseof atyp) in
        if is_comp (fcomp ft) DynArr then DynArrParCheck k ft at_ fvarpar
        else if Nat.eqb ft at_ then Ok []
        else if negb fvarpar && is_form (fform ft) FPointer && is_form (fform at_) FPointer then
          let* fb := deref (baseof ft) in
          let* ab := deref (baseof at_) in
          if is_comp (fcomp fb) Record_ && is_comp (fcomp ab) Record_ then
            let* r := walk k (Some ab) fb in
            Ok (match r with None => [113] | Some _ => [] end)
          else Ok [66]
        else Ok [66]
      else Ok [67]
  end.

(** OPB.Mod 1404-1434. *)
Definition Param (fuel : nat) (ap : node) (fp : param) : res (list Z) :=
  let ft := ptyp fp in
  let at_ := ntyp ap in
  if is_form (fform ft) FUndef then Ok []
  else if pmode fp =? mVarPar then
    let e1 := if NotVar ap then [122] else [] in
    let e2 := if nreadonly ap then [76] else [] in
    let* e3 :=
      if is_comp (fcomp ft) DynArr then DynArrParCheck fuel ft at_ true
      else if is_comp (fcomp ft) Record_ && is_comp (fcomp at_) Record_ then
        let* r := walk fuel (Some at_) ft in
        Ok (match r with None => [111] | Some _ => [] end)
      else if Nat.eqb ft (sysptrtyp E) && is_form (fform at_) FPointer then Ok []
      else if negb (Nat.eqb at_ ft) &&
              negb (is_form (fform ft) FByte &&
                    (between FByte (fform at_) FChar || is_form (fform at_) FInt) &&
                    (ssize (S at_) =? 1)) then Ok [123]
      else if is_form (fform ft) FPointer && (nclass ap =? Nguard) then Ok [123]
      else Ok [] in
    Ok (e1 ++ e2 ++ e3)
  else if is_comp (fcomp ft) DynArr then
    let ap' := if (nclass ap =? Nconst) && is_form (fform at_) FChar then CharToString ap else ap in
    let* b := deref (baseof ft) in
    if is_form (fform (ntyp ap')) FString && is_form (fform b) FChar then Ok []
    else if nclass ap' >=? Nconst then Ok [59]
    else DynArrParCheck fuel ft (ntyp ap') false
  else
    let* r := CheckAssign fuel ft ap in Ok (fst r).
End WithTable.
