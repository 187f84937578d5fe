(** Declarations of type-bound procedures: OPP.Mod Receiver (502-520), Extends (522-529), GetParams (565-578), TProcDecl (595-636), with OPT.Mod
    FindField (455-468), and the numbering pass OPV.Mod GetTProcNum and Traverse (63-75, 97-128).  Only declarations at level 0 (elsewhere error
    73).  The members of record types are one list, keyed by type and name, instead of a tree per type; [mnolev] of a member is that of its
    type.  After an error in the receiver the declaration is skipped (the code goes on with a dummy
    type), and after error 1 the list of members has the name twice: only the fact that there was an error matters then. *)
From Verif Require Import Base AsgModel.

Definition name := Z.
(** A type-bound procedure: visibility, the receiver (mode, name, type), the other parameters, the result type, hasBody and isRedef. *)
Record meth := mkm { mvis : Z; mrmode : Z; mrname : list Z; mrtyp : tid; mparams : list param; mres : tid; mbody : bool; mredef : bool }.
Inductive member := MField | MProc (m : meth).
Definition links := list ((tid * name) * member).
Record decl := mkd { dforward : bool; drmode : Z; drname : list Z; drtyp : tid; dname : name; dvis : Z; dparams : list param; dres : tid }.

Section WithTable.
Variable E : env.
Notation S t := (str E t).
(** The module of a type (0: the one being compiled) and the visibility of the name of a type ([strobj]), if it has one. *)
Variable mno : tid -> Z.
Variable tvis : tid -> option Z.
Definition external : Z := 1.
Definition internal : Z := 0.

Definition key_eqb (a b : tid * name) : bool := Nat.eqb (fst a) (fst b) && (snd a =? snd b).
Fixpoint own (ls : links) (k : tid * name) : option member :=
  match ls with [] => None | (k', x) :: ls => if key_eqb k' k then Some x else own ls k end.
Fixpoint replace (ls : links) (k : tid * name) (x : member) : links :=
  match ls with [] => [] | (k', y) :: ls => if key_eqb k' k then (k', x) :: ls else (k', y) :: replace ls k x end.
(** OPT.Mod 455-468; the type that has the member stands for the identity of the object. *)
Fixpoint FindField (fuel : nat) (ls : links) (t : option tid) (n : name) : res (option (tid * member)) :=
  match t with
  | None => Ok None
  | Some t =>
      match own ls (t, n) with
      | Some x => Ok (Some (t, x))
      | None => match fuel with O => Fuel | Datatypes.S k => FindField k ls (sbase (S t)) n end
      end
  end.
(** OPP.Mod 522-529. *)
Fixpoint up (fuel : nat) (x : tid) (b : tid) : res bool :=
  match sbase (S x) with
  | None => Ok false
  | Some x => if Nat.eqb x b then Ok true else match fuel with O => Fuel | Datatypes.S k => up k x b end
  end.
Definition Extends (fuel : nat) (x b : tid) : res bool :=
  let* (b, x) :=
    if is_form (sform (S b)) FPointer && is_form (sform (S x)) FPointer then
      let* b := deref (sbase (S b)) in let* x := deref (sbase (S x)) in Ok (b, x)
    else Ok (b, x) in
  if is_comp (scomp (S b)) Record_ && is_comp (scomp (S x)) Record_ then up fuel x b
  else Ok (Nat.eqb x b).
(** OPP.Mod 507-517: the record type of the receiver, or the error. *)
Definition Receiver (mode : Z) (typ : tid) : res (tid + Z) :=
  let* rec := if is_form (sform (S typ)) FPointer then deref (sbase (S typ)) else Ok typ in
  if negb ((mode =? mVar) && is_form (sform (S typ)) FPointer && is_comp (scomp (S rec)) Record_ ||
           (mode =? mVarPar) && is_comp (scomp (S typ)) Record_) then Ok (inr 70)
  else if negb (mno rec =? 0) then Ok (inr 72)
  else Ok (inl rec).
Definition pr (mode : Z) (n : list Z) (t : tid) : param := {| pmode := mode; pname := n; ptyp := t |}.

(** OPP.Mod 595-636 and 565-578. *)
Definition TProcDecl (fuel : nat) (d : decl) (st : links * list Z) : res (links * list Z) :=
  let '(ls, er) := st in
  let* r := Receiver (drmode d) (drtyp d) in
  match r with
  | inr e => Ok (ls, er ++ [e])
  | inl rec =>
      let* fwd := FindField fuel ls (Some rec) (dname d) in
      let* baseProc := FindField fuel ls (sbase (S rec)) (dname d) in
      let baseProc := match baseProc with Some (o, MProc m) => Some (o, m) | _ => None end in
      let fwd := match fwd, baseProc with Some (o, _), Some (o', _) => if Nat.eqb o o' then None else fwd | _, _ => fwd end in
      let fwd := match fwd with Some (o, _) => if negb (mno o =? 0) then None else fwd | None => None end in
      let new := mkm (dvis d) (drmode d) (drname d) (drtyp d) (dparams d) (dres d) false false in
      let* (o, proc, ls, e1) :=
        match fwd with
        | Some (o, MProc m) =>
            if negb (mbody m) then
              let* ep := CheckParameters E fuel (pr (drmode d) (drname d) (drtyp d) :: dparams d) (pr (mrmode m) (mrname m) (mrtyp m) :: mparams m) true in
              Ok (o, m, ls, (if negb (mvis m =? dvis d) then [118] else []) ++ ep ++ (if negb (Nat.eqb (dres d) (mres m)) then [117] else []))
            else Ok (rec, new, ls ++ [((rec, dname d), MProc new)], [1])
        | Some (_, MField) => Ok (rec, new, ls ++ [((rec, dname d), MProc new)], [1])
        | None => Ok (rec, new, ls ++ [((rec, dname d), MProc new)], match own ls (rec, dname d) with Some _ => [1] | None => [] end)
        end in
      let* (proc, e2) :=
        match baseProc with
        | None => Ok (proc, [])
        | Some (_, b) =>
            let* x := Extends fuel (drtyp d) (mrtyp b) in
            let* ep := CheckParameters E fuel (mparams proc) (mparams b) false in
            Ok (mkm (mvis proc) (mrmode proc) (mrname proc) (mrtyp proc) (mparams proc) (mres proc) (mbody proc) true,
                (if negb (drmode d =? mrmode b) || negb x then [115] else []) ++ ep ++
                (if negb (Nat.eqb (mres proc) (mres b)) then [117] else []) ++
                (if (mvis b =? external) && (mvis proc =? internal) && match tvis rec with Some v => v =? external | None => false end then [109] else []))
        end in
      let proc := if dforward d then proc
                  else mkm (mvis proc) (mrmode proc) (mrname proc) (mrtyp proc) (mparams proc) (mres proc) true (mredef proc) in
      Ok (replace ls (o, dname d) (MProc proc), er ++ e1 ++ e2)
  end.
Fixpoint declare (fuel : nat) (ds : list decl) (st : links * list Z) : res (links * list Z) :=
  match ds with [] => Ok st | d :: ds => let* st := TProcDecl fuel d st in declare fuel ds st end.
(** OPV.Mod 63-75 and 117: errors 119 and 129. *)
Definition GetTProcNum (fuel : nat) (ls : links) (k : tid * name) (m : meth) : res (list Z) :=
  let* redef := FindField fuel ls (sbase (S (fst k))) (snd k) in
  Ok ((match redef with Some _ => if negb (mredef m) then [119] else [] | None => [] end) ++
      (if negb (mbody m) && negb (mredef m) then [129] else [])).
Fixpoint Traverse (fuel : nat) (all : links) (ls : links) : res (list Z) :=
  match ls with
  | [] => Ok []
  | (k, MProc m) :: ls =>
      let* e1 := if mno (fst k) =? 0 then GetTProcNum fuel all k m else Ok [] in
      let* e2 := Traverse fuel all ls in
      Ok (e1 ++ e2)
  | _ :: ls => Traverse fuel all ls
  end.
(** The declarations of a module: the members at the end and all errors. *)
Definition Module_ (fuel : nat) (ls : links) (ds : list decl) : res (links * list Z) :=
  let* (ls, er) := declare fuel ds (ls, []) in
  let* e := Traverse fuel ls ls in
  Ok (ls, er ++ e).
End WithTable.
