(** The predeclared procedures and those of SYSTEM: OPB.Mod StPar0 (948-1116), StPar1 (1118-1291), StParN (1293-1316) and StFct (1318-1359), called
    by OPP.Mod StandProcCall (368-390), with NotVar (155-157), Convert (603-635) and OptIf (70-90) for the case of ASSERT.  Kept: the errors, the
    type of the result, the value of a constant integer result, and the dimension that LEN asks for.  Left out: ADR and CC of SYSTEM, warnings (the
    negative numbers), the marks [leaf] and [pvused], the nodes of the tree, and the values of ABS, CAP and ODD (C39) and of reals. *)
From Verif Require Import Base ArithModel LitModel AsgModel OperModel.

(** An argument: the operand, the attribute [readonly], the class below SYSTEM.VAL, the types of the arrays to which the last indices of the
    designator are applied (last one first), and of a real constant the next lower integer, whether that is outside INT64, and whether the constant
    is too large for REAL. *)
Record arg := mka { ao : opnd; aro : bool; avl : option Z; aix : list tid; afl : Z; abig : bool; aovf : bool }.
Inductive fct :=
  | Halt | New | Abs | Cap | Ord | Entier | Odd | Min | Max | Chr | Short | Long | Size | Inc | Dec | Incl | Excl | Len | Copy | Ash
  | Lsh | Rot | Get | Put | GetReg | PutReg | Bit | Val | SysNew | Move | Assert.
(** The predeclared types (the integer types by size), OPM.MaxIndex, the size of addresses, and OPT.TypSize (C58). *)
Record std := { notyp : tid; inttyp : tid; linttyp : tid; sinttyp : tid; adrtyp : tid; ityp : Z -> tid; maxidx : Z; adrsz : Z; szof : tid -> Z }.
(** The node of the call so far: type, class constant, value, the types below the last indices, the dimension of LEN; and NIL after ASSERT(TRUE). *)
Record st := mks { sty : tid; sco : bool; sval : option Z; six : list tid; slen : option Z }.

Section WithTable.
Variable E : env.
Variable P : predecl.
Variable D : std.
Notation S t := (str E t).
Definition aty (x : arg) : tid := oty (ao x).
Definition acl (x : arg) : Z := ocl (ao x).
Definition aiv (x : arg) : Z := oiv (ao x).
Definition frm (x : arg) : form := sform (S (aty x)).
Definition con (x : arg) : bool := is_const (ao x).
Definition bad (x : arg) : bool := not_value (ao x).
Definition is_array (t : tid) : bool := is_comp (scomp (S t)) Array || is_comp (scomp (S t)) DynArr.
(** OPB.Mod 155-157. *)
Definition NotVar (x : arg) : bool :=
  (acl x >=? Nconst) && (negb (acl x =? Nmop) || match avl x with Some c => c >=? Nconst | None => true end).
Definition node (x : arg) : st := mks (aty x) (con x) (if con x then Some (aiv x) else None) (aix x) None.
Definition typed (x : arg) (t : tid) : st := mks t (con x) (if con x then Some (aiv x) else None) [] None.
Definition plain (t : tid) : st := mks t false None [] None.
(** OPB.Mod 603-635: integers and characters to integers and characters, reals to integers and to REAL. *)
Definition Convert (x : arg) (t : tid) : res (st * list Z) :=
  let g := sform (S t) in
  if con x then
    if is_form (frm x) FInt then
      if is_form g FInt then
        if ssize (S (aty x)) >? ssize (S t) then
          let* s := SetIntType (aiv x) in
          Ok (if s >? ssize (S t) then (mks t true (Some 1) [] None, [203]) else (typed x t, []))
        else Ok (typed x t, [])
      else Ok (typed x t, if (0 >? aiv x) || (aiv x >? 255) then [220] else [])
    else if in_real (frm x) then
      if in_real g then Ok (mks t true None [] None, if is_form g FReal && aovf x then [203] else [])
      else Ok (if abig x then (mks t true (Some 1) [] None, [203]) else (mks t true (Some (afl x)) [] None, []))
    else Ok (typed x t, [])
  else Ok (plain t, []).
(** OPB.Mod 116-121. *)
Definition int_const (v : Z) : res st := let* s := SetIntType v in Ok (mks (ityp D s) true (Some v) [] None).
(** OPT.Mod 252-270. *)
Definition shorter (t : tid) : tid :=
  let z := ssize (S t) in
  if z >? ssize (S (linttyp D)) then linttyp D else if z >? ssize (S (inttyp D)) then inttyp D
  else if z >? ssize (S (sinttyp D)) then sinttyp D else ityp D 1.
Definition longer (t : tid) : tid :=
  let z := ssize (S t) in
  if z <? ssize (S (sinttyp D)) then sinttyp D else if z <? ssize (S (inttyp D)) then inttyp D
  else if z <? ssize (S (linttyp D)) then linttyp D else ityp D 8.
(** OPB.Mod 1082-1087, 1258-1260: the address of GET, PUT, BIT and MOVE. *)
Definition address (x : arg) : res (st * list Z) :=
  if bad x then Ok (node x, [126])
  else if con x && is_form (frm x) FInt && (ssize (S (aty x)) <? ssize (S (adrtyp D))) then Convert x (adrtyp D)
  else if negb ((is_form (frm x) FPointer || is_form (frm x) FInt) && (ssize (S (aty x)) =? adrsz D)) then Ok (typed x (adrtyp D), [111])
  else Ok (node x, []).
(** Arrays of characters. *)
Definition chars (x : arg) : res bool :=
  if is_array (aty x) then let* b := deref (sbase (S (aty x))) in Ok (is_form (sform (S b)) FChar) else Ok false.
(** OPB.Mod 948-1116. *)
Definition StPar0 (f : fct) (x : arg) : res (st * list Z) :=
  let t := aty x in
  let m (op : monop) := let '(e, r) := MOp E P op (ao x) (aiv x =? - 2 ^ 63) in Ok (mks r (con x) None [] None, e) in
  match f with
  | Halt => Ok (plain (notyp D), if is_form (frm x) FInt && con x then if (0 <=? aiv x) && (aiv x <=? 255) then [] else [218] else [69])
  | New =>
      if NotVar x then Ok (plain (notyp D), [112])
      else if is_form (frm x) FPointer then
        let* b := deref (sbase (S t)) in
        let e := if aro x then [76] else [] in
        if is_comp (scomp (S b)) Record_ || is_array b then Ok (plain (if is_comp (scomp (S b)) DynArr then b else notyp D), e)
        else Ok (plain (notyp D), e ++ [111])
      else Ok (plain (notyp D), [111])
  | Abs => m MAbs
  | Cap => m MCap
  | Odd => m MOdd
  | Ord =>
      if bad x then Ok (typed x (inttyp D), [126])
      else if is_form (frm x) FChar then Convert x (inttyp D) else Ok (typed x (inttyp D), [111])
  | Entier =>
      if bad x then Ok (typed x (linttyp D), [126])
      else if in_real (frm x) then Convert x (linttyp D) else Ok (typed x (linttyp D), [111])
  | Min =>
      if acl x =? Ntype then
        match frm x with
        | FBool => Ok (mks (booltyp P) true (Some 0) [] None, [])
        | FChar => Ok (mks (chartyp E) true (Some 0) [] None, [])
        | FInt => let* v := SignedMinimum (ssize (S t)) in let* n := int_const v in Ok (n, [])
        | FSet => Ok (mks (inttyp D) true (Some 0) [] None, [])
        | FReal => Ok (mks (realtyp P) true None [] None, [])
        | FLReal => Ok (mks (lrltyp P) true None [] None, [])
        | _ => Ok (node x, [111])
        end
      else Ok (node x, [110])
  | Max =>
      if acl x =? Ntype then
        match frm x with
        | FBool => Ok (mks (booltyp P) true (Some 1) [] None, [])
        | FChar => Ok (mks (chartyp E) true (Some 255) [] None, [])
        | FInt => let* v := SignedMaximum (ssize (S t)) in let* n := int_const v in Ok (n, [])
        | FSet => Ok (mks (inttyp D) true (Some (ssize (S t) * 8 - 1)) [] None, [])
        | FReal => Ok (mks (realtyp P) true None [] None, [])
        | FLReal => Ok (mks (lrltyp P) true None [] None, [])
        | _ => Ok (node x, [111])
        end
      else Ok (node x, [110])
  | Chr =>
      if bad x then Ok (node x, [126])
      else if is_form (frm x) FUndef || is_form (frm x) FInt then Convert x (chartyp E) else Ok (typed x (chartyp E), [111])
  | Short =>
      if bad x then Ok (node x, [126])
      else if is_form (frm x) FInt then Convert x (shorter t)
      else if is_form (frm x) FLReal then Convert x (realtyp P)
      else Ok (node x, [111])
  | Long =>
      if bad x then Ok (node x, [126])
      else if is_form (frm x) FInt then Convert x (longer t)
      else if is_form (frm x) FReal then Convert x (lrltyp P)
      else if is_form (frm x) FChar then Convert x (linttyp D)
      else Ok (node x, [111])
  | Inc | Dec => Ok (node x, if NotVar x then [112] else if negb (is_form (frm x) FInt) then [111] else if aro x then [76] else [])
  | Incl | Excl =>
      if NotVar x then Ok (node x, [112])
      else if negb (is_form (frm x) FSet) then Ok (typed x (settyp P), [111])
      else Ok (node x, if aro x then [76] else [])
  | Len => Ok (node x, if negb (is_array t) then [131] else [])
  | Copy =>
      if con x && is_form (frm x) FChar then Ok (plain (stringtyp E), [])
      else if bad x then Ok (node x, [126])
      else let* c := chars x in Ok (node x, if negb c && negb (is_form (frm x) FString) then [111] else [])
  | Ash =>
      if bad x then Ok (node x, [126])
      else if is_form (frm x) FInt then
        if ssize (S t) <? ssize (S (linttyp D)) then Convert x (linttyp D) else Ok (node x, [])
      else Ok (typed x (linttyp D), [111])
  | Size =>
      if negb (acl x =? Ntype) then let* n := int_const 1 in Ok (n, [110])
      else if match frm x with FByte | FBool | FChar | FInt | FReal | FLReal | FSet | FPointer | FProc => true | _ => false end
              || is_comp (scomp (S t)) Array || is_comp (scomp (S t)) Record_ then
        let* n := int_const (szof D t) in Ok (n, [])
      else let* n := int_const 1 in Ok (n, [111])
  | Lsh | Rot =>
      Ok (node x, if bad x then [126]
                  else if negb (is_form (frm x) FInt || is_form (frm x) FByte || is_form (frm x) FChar || is_form (frm x) FSet) then [111] else [])
  | Get | Put | Bit | Move => address x
  | GetReg | PutReg =>
      Ok (node x, if is_form (frm x) FInt && con x then if (aiv x <? 0) || (aiv x >? -1) then [220] else [] else [69])
  | Val =>
      Ok (node x, if negb (acl x =? Ntype) then [110]
                  else if is_form (frm x) FUndef || is_form (frm x) FString || is_form (frm x) FNoTyp || is_comp (scomp (S t)) DynArr then [111] else [])
  | SysNew => Ok (node x, if NotVar x then [112] else if is_form (frm x) FPointer then [] else [111])
  | Assert =>
      if bad x then Ok (mks (booltyp P) true (Some 0) [] None, [126])
      else if negb (is_form (frm x) FBool) then Ok (mks (booltyp P) true (Some 0) [] None, [120])
      else Ok (mks t (con x) (if con x then Some (1 - aiv x) else None) [] None, fst (MOp E P MNot (ao x) false))
  end.
(** OPB.Mod 1160: the type of the given dimension. *)
Fixpoint down (n : nat) (t : tid) : res (nat * tid) :=
  match n with
  | O => Ok (O, t)
  | Datatypes.S k => if is_array t then let* b := deref (sbase (S t)) in down k b else Ok (n, t)
  end.
(** OPB.Mod 1276-1283, 1340-1349: the constant conditions of ASSERT (after the negation). *)
Definition assert_ (p : st) : list Z := match sval p with Some v => if negb (v =? 0) then [99] else [] | None => [] end.
(** OPB.Mod 1118-1291. *)
Definition StPar1 (f : fct) (p : st) (x : arg) : res (st * list Z) :=
  match f with
  | Inc | Dec =>
      if bad x then Ok (plain (notyp D), [126])
      else if negb (Nat.eqb (aty x) (sty p)) then
        if is_form (frm x) FInt && (con x || (is_form (sform (S (sty p))) FInt && (ssize (S (aty x)) <=? ssize (S (sty p))))) then
          let* (_, e) := Convert x (sty p) in Ok (plain (notyp D), e)
        else Ok (plain (notyp D), [111])
      else Ok (plain (notyp D), [])
  | Incl | Excl =>
      Ok (plain (notyp D), if bad x then [126]
                           else if is_form (frm x) FInt then
                             if con x && ((0 >? aiv x) || (aiv x >=? ssize (S (sty p)) * 8)) then [202] else []
                           else [111])
  | Len =>
      if negb (is_form (frm x) FInt) || negb (con x) then Ok (p, [69])
      else if ssize (S (aty x)) =? 1 then
        let* (l, t) := (if aiv x >=? 0 then down (Z.to_nat (aiv x)) (sty p) else Ok (1%nat, sty p)) in
        if negb (Nat.eqb l 0) || negb (is_array t) then Ok (p, [132])
        else if is_comp (scomp (S t)) DynArr then
          Ok (mks (linttyp D) false None [] (Some (aiv x + Z.of_nat (length (six p)))), [])
        else let* n := int_const (sn (S t)) in Ok (n, [])
      else Ok (p, [132])
  | Copy =>
      if NotVar x then Ok (plain (notyp D), [112])
      else let* c := chars x in Ok (plain (notyp D), if c then if aro x then [76] else [] else [111])
  | Ash =>
      if bad x then Ok (p, [126])
      else if is_form (frm x) FInt then
        match sval p, con x with
        | Some v, true =>
            if (-62 >? aiv x) || (aiv x >? 62) then Ok (mks (sty p) true (Some 1) [] None, [208])
            else if aiv x >=? 0 then
              let* s := ASH 1 (aiv x) in
              let* a := chk 64 (Z.abs v) in
              if a <=? (2 ^ 63 - 1) / s then let* r := chk 64 (v * s) in Ok (mks (sty p) true (Some r) [] None, [])
              else Ok (mks (sty p) true (Some 1) [] None, [208])
            else let* r := ASH v (aiv x) in Ok (mks (sty p) true (Some r) [] None, [])
        | _, _ => Ok (plain (sty p), [])
        end
      else Ok (p, [111])
  | New =>
      if bad x then Ok (p, [126])
      else if is_comp (scomp (S (sty p))) DynArr then
        let* b := deref (sbase (S (sty p))) in
        Ok (plain b, if is_form (frm x) FInt then if con x && ((aiv x <=? 0) || (aiv x >? maxidx D)) then [63] else [] else [111])
      else Ok (p, [64])
  | Lsh | Rot => if bad x then Ok (p, [126]) else if negb (is_form (frm x) FInt) then Ok (p, [111]) else Ok (plain (sty p), [])
  | Get | Put | GetReg | PutReg =>
      Ok (plain (notyp D),
          if bad x then [126]
          else if match frm x with
                  | FUndef | FByte | FBool | FChar | FInt | FReal | FLReal | FSet | FPointer | FProc => true
                  | _ => false
                  end then
            match f with Get | GetReg => if NotVar x then [112] else [] | _ => [] end
          else [111])
  | Bit => Ok (plain (booltyp P), if bad x then [126] else if is_form (frm x) FInt then [] else [111])
  | Val =>
      let e := if bad x || is_form (frm x) FUndef || is_form (frm x) FString || is_form (frm x) FNoTyp || is_comp (scomp (S (aty x))) DynArr
               then [126] else [] in
      if con x && is_form (frm x) FInt && is_form (sform (S (sty p))) FInt then let* (n, e') := Convert x (sty p) in Ok (n, e ++ e')
      else Ok (plain (sty p), e)
  | SysNew => Ok (plain (notyp D), if bad x then [126] else if is_form (frm x) FInt then [] else [111])
  | Move => let* (_, e) := address x in Ok (p, e)
  | Assert =>
      if is_form (frm x) FInt && con x then
        if (0 <=? aiv x) && (aiv x <=? 255) then Ok (plain (notyp D), assert_ p) else Ok (p, [218])
      else Ok (p, [69])
  | _ => Ok (p, [64])
  end.
(** OPB.Mod 1293-1316; [n] is the number of arguments before. *)
Definition StParN (f : fct) (p : st) (x : arg) (n : nat) : res (st * list Z) :=
  match f with
  | New =>
      if bad x then Ok (p, [126])
      else if negb (is_comp (scomp (S (sty p))) DynArr) then Ok (p, [64])
      else if is_form (frm x) FInt then
        let* b := deref (sbase (S (sty p))) in
        Ok (plain b, if con x && ((aiv x <=? 0) || (aiv x >? maxidx D)) then [63] else [])
      else Ok (p, [111])
  | Move =>
      if Nat.eqb n 2 then Ok (plain (notyp D), if bad x then [126] else if is_form (frm x) FInt then [] else [111]) else Ok (p, [64])
  | _ => Ok (p, [64])
  end.
(** OPB.Mod 1318-1359: after the last argument. *)
Definition StFct (f : fct) (p : st) (parno : nat) : res (st * list Z) :=
  let less (k : nat) := if Nat.ltb parno k then [65] else [] in
  match f with
  | New =>
      if negb (Nat.eqb (sty p) (notyp D)) then Ok (plain (notyp D), if is_comp (scomp (S (sty p))) DynArr then [65] else [])
      else Ok (p, less 1%nat)
  | Halt | Abs | Cap | Ord | Entier | Odd | Min | Max | Chr | Short | Long | Size => Ok (p, less 1%nat)
  | Inc | Dec => if Nat.eqb parno 1 then Ok (plain (notyp D), []) else Ok (p, less 2%nat)
  | Len =>
      if Nat.eqb parno 1 then
        if is_comp (scomp (S (sty p))) DynArr then Ok (mks (linttyp D) false None [] (Some (Z.of_nat (length (six p)))), [])
        else let* n := int_const (sn (S (sty p))) in Ok (n, [])
      else Ok (p, less 2%nat)
  | Incl | Excl | Copy | Ash => Ok (p, less 2%nat)
  | Assert => if Nat.eqb parno 1 then Ok (plain (notyp D), assert_ p) else Ok (p, less 1%nat)
  | Move => Ok (p, less 3%nat)
  | _ => Ok (p, less 2%nat)
  end.
(** OPP.Mod 368-390. *)
Fixpoint rest (f : fct) (p : st) (n : nat) (xs : list arg) : res (st * list Z * nat) :=
  match xs with
  | [] => Ok (p, [], n)
  | x :: xs => let* (p, e) := StParN f p x n in let* (p, e', n) := rest f p (Datatypes.S n) xs in Ok (p, e ++ e', n)
  end.
Definition call (f : fct) (xs : list arg) : res (st * list Z) :=
  match xs with
  | [] => StFct f (plain (notyp D)) 0
  | [x] => let* (p, e) := StPar0 f x in let* (p, e') := StFct f p 1 in Ok (p, e ++ e')
  | x :: y :: xs =>
      let* (p, e0) := StPar0 f x in
      let* (p, e1) := StPar1 f p y in
      let* (p, e2, n) := rest f p 2 xs in
      let* (p, e3) := StFct f p n in
      Ok (p, e0 ++ e1 ++ e2 ++ e3)
  end.
End WithTable.
