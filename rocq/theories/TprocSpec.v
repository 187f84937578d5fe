(** Specification for C81: which members of the record types of a module go together. *)
From Verif Require Import Base AsgModel AsgSpec TprocModel.

Section WithTable.
Variable E : env.
Notation T t := (str E t).
Variable mno : tid -> Z.
Variable tvis : tid -> option Z.

(** Two procedures can be called with the same parameters, passed in the same way, and have the same result type. *)
Definition agree (m m' : meth) : Prop :=
  mrmode m = mrmode m' /\ same_params E (mparams m) (mparams m') /\ mres m = mres m'.
(** The receiver is the record type [t] as a VAR parameter or a pointer to [t] as a value parameter. *)
Definition receives (mode : Z) (typ t : tid) : Prop :=
  scomp (T t) = Record_ /\
  (mode = mVarPar /\ typ = t \/ mode = mVar /\ sform (T typ) = FPointer /\ sbase (T typ) = Some t).
(** In every chain of extensions all procedures of the same name agree. *)
Definition consistent (ls : links) : Prop :=
  (forall t n m, own ls (t, n) = Some (MProc m) -> receives (mrmode m) (mrtyp m) t) /\
  (forall D B n mD mB, extends E D B -> own ls (D, n) = Some (MProc mD) -> own ls (B, n) = Some (MProc mB) -> agree mD mB).
(** The procedure of [D] and its base types that is nearest to [D]: the one that a call with dynamic type [D] executes. *)
Definition nearest (ls : links) (D : tid) (n : name) (m : meth) : Prop :=
  exists o, extends E D o /\ own ls (o, n) = Some (MProc m) /\
    forall o' m', extends E D o' -> own ls (o', n) = Some (MProc m') -> extends E o o'.
(** The members before the first declaration of a procedure: all procedures are those of imported types, whose base types are imported. *)
Definition at_start (ls : links) : Prop :=
  (forall t n m, own ls (t, n) = Some (MProc m) -> mno t <> 0) /\
  (forall t b, scomp (T t) = Record_ -> sbase (T t) = Some b -> mno t <> 0 -> mno b <> 0).

(** The rules of the language for a sequence of declarations without forward declarations: each receiver is a type of this module, no type gets
    two members of the same name, no member of a base type other than a procedure has the name, a procedure of a base type comes earlier, the
    procedures of a chain agree, and an exported procedure of an exported type is redefined by an exported one. *)
Definition meth_of (d : decl) : meth := mkm (dvis d) (drmode d) (drname d) (drtyp d) (dparams d) (dres d) true false.
Definition has_key (d : decl) (t : tid) (n : name) : Prop := receives (drmode d) (drtyp d) t /\ dname d = n.
Definition fits (ls : links) (t : tid) (d : decl) (m : meth) : Prop :=
  agree (meth_of d) m /\ ~ (mvis m = external /\ dvis d = internal /\ tvis t = Some external).
Definition lawful (ls : links) (before : list decl) (d : decl) (after : list decl) : Prop :=
  dforward d = false /\
  exists t, receives (drmode d) (drtyp d) t /\ mno t = 0 /\
    own ls (t, dname d) = None /\
    (forall d', In d' before -> ~ has_key d' t (dname d)) /\
    forall b, extends E t b -> b <> t ->
      own ls (b, dname d) <> Some MField /\
      (forall m, own ls (b, dname d) = Some (MProc m) -> fits ls t d m) /\
      (forall d', In d' before -> has_key d' b (dname d) -> fits ls t d (meth_of d')) /\
      (forall d', In d' after -> ~ has_key d' b (dname d)).
Definition rules (ls : links) (ds : list decl) : Prop :=
  forall a d b, ds = a ++ d :: b -> lawful ls a d b.
End WithTable.
