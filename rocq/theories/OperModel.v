(** The operators: OPB.Mod MOp (279-364), CheckPtr (366-379), ConstOp (422-601), Convert (603-635), Op (637-799), In (239-255), SetRange (801-825)
    and SetElem (827-842), with the type descriptors of AsgModel.  Kept: which errors are reported, the type of the result, and the types of the
    operands after conversion.  The values of folded constants, the errors of the folding and the choice of the smallest type (C39, C41, C71) are
    parameters; the replacement of operations by cheaper ones (C40) and by one operand is left out: these keep the type. *)
From Verif Require Import Base AsgModel.

(** An operand: class, type, and of a constant the integer value, whether the real value is 0.0, and the length of the string with its 0X. *)
Record opnd := mko { ocl : Z; oty : tid; oiv : Z; orz : bool; olen : Z }.
Inductive binop := OTimes | OSlash | ODiv | OMod | OAnd | OPlus | OMinus | OOr | OEql | ONeq | OLss | OLeq | OGtr | OGeq.
Inductive monop := MNot | MPlus | MMinus | MAbs | MCap | MOdd.
Record out := mkr { errs : list Z; rtyp : tid; left : tid; right : tid }.
(** The predeclared types that the operators name, in addition to those of [env]. *)
Record predecl := { booltyp : tid; realtyp : tid; lrltyp : tid; settyp : tid }.

Section WithTable.
Variable E : env.
Variable P : predecl.
Notation S t := (str E t).
(** Extension level of a record type. *)
Variable lev : tid -> Z.
(** The errors and the type of a folded constant expression. *)
Variable foldtyp : binop -> opnd -> opnd -> tid.
Variable folderr : binop -> opnd -> opnd -> list Z.

Definition form_of (x : opnd) : form := sform (S (oty x)).
Definition is_const (x : opnd) : bool := ocl x =? Nconst.
Definition not_value (x : opnd) : bool := (ocl x =? Ntype) || (ocl x =? Nproc).
Definition with_type (x : opnd) (t : tid) : opnd := mko (ocl x) t (oiv x) (orz x) (olen x).
(** OPB.Mod 140-146. *)
Definition CharToString (x : opnd) : opnd := mko (ocl x) (stringtyp E) (oiv x) (orz x) (if oiv x =? 0 then 1 else 2).
Definition in_real (f : form) : bool := is_form f FReal || is_form f FLReal.
(** OPB.Mod 603-635: the type; an integer constant that becomes a real is 0.0 if it was 0. *)
Definition Convert (x : opnd) (t : tid) : opnd :=
  let rz := if is_form (form_of x) FInt && in_real (sform (S t)) then oiv x =? 0 else orz x in
  mko (if is_const x then ocl x else Nmop) t (oiv x) rz (olen x).

(** OPB.Mod 374: the walk from the lower record type. *)
Fixpoint climb (fuel : nat) (p : option tid) (q : tid) : res (list Z) :=
  match p with
  | None => Ok [100]
  | Some p => if Nat.eqb p q || Nat.eqb p (undftyp E) then Ok []
              else match fuel with O => Fuel | Datatypes.S k => climb k (sbase (S p)) q end
  end.
(** OPB.Mod 366-379. *)
Definition CheckPtr (fuel : nat) (x y : opnd) : res (list Z) :=
  if is_form (form_of y) FPointer then
    let* p := deref (sbase (S (oty x))) in
    let* q := deref (sbase (S (oty y))) in
    if is_comp (scomp (S p)) Record_ && is_comp (scomp (S q)) Record_ then
      if lev p <? lev q then climb fuel (Some q) p else climb fuel (Some p) q
    else Ok [100]
  else Ok (if negb (is_form (form_of y) FNil) then [100] else []).

(** OPB.Mod 464-493: the types of two constants are made equal. *)
Definition const_match (fuel : nat) (x y : opnd) : res (opnd * opnd * list Z) :=
  let f := form_of x in
  let g := form_of y in
  if is_form f g then Ok (x, y, [])
  else
    match f with
    | FChar => Ok (if is_form g FString then (CharToString x, y, []) else (x, with_type y (oty x), [100]))
    | FInt => Ok (if is_form g FReal then (Convert x (realtyp P), y, [])
                  else if is_form g FLReal then (Convert x (lrltyp P), y, [])
                  else (x, with_type y (oty x), [100]))
    | FReal => Ok (if is_form g FInt then (x, Convert y (oty x), [])
                   else if is_form g FLReal then (with_type x (lrltyp P), y, [])
                   else (x, with_type y (oty x), [100]))
    | FLReal => Ok (if is_form g FInt then (x, Convert y (oty x), [])
                    else if is_form g FReal then (x, with_type y (lrltyp P), [])
                    else (x, with_type y (oty x), [100]))
    | FString => Ok (if is_form g FChar then (x, CharToString y, []) else (x, with_type y (oty x), [100]))
    | FNil => Ok (x, y, if negb (is_form g FPointer || is_form g FProc) then [100] else [])
    | FPointer => let* e := CheckPtr fuel x y in Ok (x, y, e)
    | FProc => Ok (x, y, if negb (is_form g FNil) then [100] else [])
    | _ => Ok (x, with_type y (oty x), [100])
    end.
(** OPB.Mod 494-601. *)
Definition ConstOp (fuel : nat) (op : binop) (x y : opnd) : res out :=
  let* (x, y, e) := const_match fuel x y in
  let f := form_of x in
  let u := is_form f FUndef in
  let fold_ (t : tid) := mkr (e ++ folderr op x y) t (oty x) (oty y) in
  let bad (n : Z) := mkr (e ++ (if u then [] else [n])) (oty x) (oty x) (oty y) in
  let always (n : Z) := mkr (e ++ [n]) (oty x) (oty x) (oty y) in
  let bool_ := mkr e (booltyp P) (oty x) (oty y) in
  let arith (n : Z) :=
    if is_form f FInt then fold_ (foldtyp op x y) else if in_real f then fold_ (oty x)
    else if is_form f FSet then fold_ (foldtyp op x y) else bad n in
  let order :=
    if is_form f FBool || is_form f FSet || is_form f FNil || is_form f FPointer then always 108 else bool_ in
  Ok (match op with
      | OTimes => arith 101
      | OSlash => if is_form f FInt then fold_ (realtyp P) else if in_real f then fold_ (oty x)
                  else if is_form f FSet then fold_ (foldtyp op x y) else bad 102
      | ODiv => if is_form f FInt then fold_ (foldtyp op x y) else bad 103
      | OMod => if is_form f FInt then fold_ (foldtyp op x y) else bad 104
      | OAnd => if is_form f FBool then mkr e (oty x) (oty x) (oty y) else always 94
      | OPlus => arith 105
      | OMinus => arith 106
      | OOr => if is_form f FBool then mkr e (oty x) (oty x) (oty y) else always 95
      | OEql | ONeq => bool_
      | OLss | OLeq | OGtr | OGeq => order
      end).

(** OPB.Mod 672-699: the types of two operands are made equal. *)
Definition match_types (fuel : nat) (z y : opnd) : res (opnd * opnd * list Z) :=
  if Nat.eqb (oty z) (oty y) then Ok (z, y, [])
  else
    let g := form_of y in
    let sz (a : opnd) := ssize (S (oty a)) in
    match form_of z with
    | FChar => Ok (if is_const z then (CharToString z, y, []) else (z, y, [100]))
    | FInt => Ok (if is_form g FInt && (sz y <? sz z) then (z, Convert y (oty z), [])
                  else if is_form g FInt || in_real g then (Convert z (oty y), y, [])
                  else (z, y, [100]))
    | FSet => Ok (if is_form g FSet && (sz y <? sz z) then (z, Convert y (oty z), [])
                  else if is_form g FSet then (Convert z (oty y), y, [])
                  else (z, y, [100]))
    | FReal => Ok (if is_form g FInt then (z, Convert y (oty z), [])
                   else if in_real g then (Convert z (oty y), y, [])
                   else (z, y, [100]))
    | FLReal => Ok (if is_form g FInt || in_real g then (z, Convert y (oty z), []) else (z, y, [100]))
    | FNil => Ok (z, y, if negb (is_form g FPointer || is_form g FProc) then [100] else [])
    | FPointer => let* e := CheckPtr fuel z y in Ok (z, y, e)
    | FProc => Ok (z, y, if negb (is_form g FNil) then [100] else [])
    | FString => Ok (z, y, [])
    | FComp => Ok (z, y, if is_comp (scomp (S (oty z))) Record_ then [100] else [])
    | _ => Ok (z, y, [100])
    end.
(** OPB.Mod 647-665: whether both are strings, and the operands. *)
Definition chararr (x : opnd) : res bool :=
  if is_form (form_of x) FString then Ok true
  else if is_comp (scomp (S (oty x))) Array || is_comp (scomp (S (oty x))) DynArr then
    let* b := deref (sbase (S (oty x))) in Ok (is_form (sform (S b)) FChar)
  else Ok false.
Definition strings (x y : opnd) : res (bool * opnd * opnd) :=
  let* xa := chararr x in
  let* ya := chararr y in
  let '(y, ya) := if xa && is_form (form_of y) FChar && is_const y then (CharToString y, true) else (y, ya) in
  let '(x, xa) := if ya && is_form (form_of x) FChar && is_const x then (CharToString x, true) else (x, xa) in
  let ok := xa && ya in
  Ok (if ok then
        if is_form (form_of x) FString && (olen x =? 1) then (ok, with_type x (chartyp E), with_type y (chartyp E))
        else if is_form (form_of y) FString && (olen y =? 1) then (ok, with_type x (chartyp E), with_type y (chartyp E))
        else (ok, x, y)
      else (ok, x, y)).
(** OPB.Mod 637-799. *)
Definition Op (fuel : nat) (op : binop) (x y : opnd) : res out :=
  if not_value x || not_value y then Ok (mkr [126] (oty x) (oty x) (oty y))
  else if is_const x && is_const y then ConstOp fuel op x y
  else
    let* (z, y, e) := match_types fuel x y in
    let f := form_of z in
    let u := is_form f FUndef in
    let ret (e2 : list Z) (t : tid) := Ok (mkr (e ++ e2) t (oty z) (oty y)) in
    let zero := if is_const y && (oiv y =? 0) then [205] else [] in
    match op with
    | OTimes => if is_form f FInt || u || between FReal f FSet then ret [] (oty z) else ret [105] (undftyp E)
    | OSlash =>
        if is_form f FInt then
          Ok (mkr (e ++ zero) (realtyp P) (realtyp P) (realtyp P))
        else if in_real f then ret (if is_const y && orz y then [205] else []) (oty z)
        else if negb (is_form f FSet) && negb u then ret [102] (undftyp E)
        else ret [] (oty z)
    | ODiv => if is_form f FInt then ret zero (oty z) else if negb u then ret [103] (undftyp E) else ret [] (oty z)
    | OMod => if is_form f FInt then ret zero (oty z) else if negb u then ret [104] (undftyp E) else ret [] (oty z)
    | OAnd => if is_form f FBool then ret [] (oty z) else if negb u then ret [94] (undftyp E) else ret [] (oty z)
    | OPlus => if u || between FInt f FSet then ret [] (oty z) else ret [105] (undftyp E)
    | OMinus => if u || between FInt f FSet then ret [] (oty z) else ret [106] (undftyp E)
    | OOr => if is_form f FBool then ret [] (oty z) else if negb u then ret [95] (undftyp E) else ret [] (oty z)
    | OEql | ONeq =>
        if between FUndef f FSet || is_form f FNil || is_form f FPointer || is_form f FProc then ret [] (booltyp P)
        else
          let* (ok, z, y) := strings z y in
          Ok (if ok then mkr e (booltyp P) (oty z) (oty y) else mkr (e ++ [107]) (undftyp E) (oty z) (oty y))
    | OLss | OLeq | OGtr | OGeq =>
        if u || between FChar f FLReal then ret [] (booltyp P)
        else
          let* (ok, z, y) := strings z y in
          Ok (if ok then mkr e (booltyp P) (oty z) (oty y) else mkr (e ++ [108]) (undftyp E) (oty z) (oty y))
    end.

(** OPB.Mod 279-364 without SYSTEM.ADR and SYSTEM.CC; [lowest]: the constant is the smallest 64-bit integer. *)
Definition MOp (op : monop) (x : opnd) (lowest : bool) : list Z * tid :=
  if not_value x then ([126], oty x)
  else
    let f := form_of x in
    let num := is_form f FInt || in_real f in
    let low := if is_const x && is_form f FInt && lowest then [203] else [] in
    match op with
    | MNot => (if is_form f FBool then [] else [98], oty x)
    | MPlus => (if negb num then [96] else [], oty x)
    | MMinus => (if num || is_form f FSet then low else [97], oty x)
    | MAbs => (if num then low else [111], oty x)
    | MCap => (if is_form f FChar then [] else [111], if is_form f FChar then oty x else chartyp E)
    | MOdd => (if is_form f FInt then [] else [111], booltyp P)
    end.
(** OPB.Mod 239-255. *)
Definition In_ (x y : opnd) : list Z * tid :=
  (if not_value x || not_value y then [126]
   else if is_form (form_of x) FInt && is_form (form_of y) FSet then
     if is_const x && ((oiv x <? 0) || (oiv x >=? ssize (S (oty y)) * 8)) then [202] else []
   else [92], booltyp P).
(** OPB.Mod 801-825 and 827-842: errors ([MAX(SYSTEM.SET64)] is 63). *)
Definition SetRange (x y : opnd) : list Z :=
  if not_value x || not_value y then [126]
  else if is_form (form_of x) FInt && is_form (form_of y) FInt then
    (if is_const x && ((0 >? oiv x) || (oiv x >? 63)) then [202] else []) ++
    (if is_const y && ((0 >? oiv y) || (oiv y >? 63)) then [202] else []) ++
    (if is_const x && is_const y && negb (oiv x <=? oiv y) then [201] else [])
  else [93].
Definition SetElem (x : opnd) : list Z :=
  if not_value x then [126]
  else if negb (is_form (form_of x) FInt) then [93]
  else if is_const x then if (0 <=? oiv x) && (oiv x <=? 63) then [] else [202]
  else [].
End WithTable.
