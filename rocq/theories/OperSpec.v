(** Specification for C82: the table of operators of the Oberon-2 report (chapter 8.2 and appendix A), with SYSTEM.BYTE and several sizes of
    integers and sets. *)
From Verif Require Import Base AsgModel AsgSpec OperModel.

Section WithTable.
Variable E : env.
Variable P : predecl.
Notation T t := (str E t).

Definition int_ (t : tid) : Prop := sform (T t) = FInt.
Definition set_ (t : tid) : Prop := sform (T t) = FSet.
Definition real_ (t : tid) : Prop := sform (T t) = FReal \/ sform (T t) = FLReal.
Definition numeric (t : tid) : Prop := int_ t \/ real_ t.
(** LONGREAL includes REAL includes the integer types; a longer integer or set type includes a shorter one. *)
Definition includes (big small : tid) : Prop :=
  numeric big /\ sform (T big) = FLReal /\ numeric small \/
  sform (T big) = FReal /\ (int_ small \/ sform (T small) = FReal) \/
  int_ big /\ int_ small /\ ssize (T small) <= ssize (T big) \/
  set_ big /\ set_ small /\ ssize (T small) <= ssize (T big).
(** [r] is one of the two types and includes both. *)
Definition smallest (x y r : tid) : Prop := (r = x \/ r = y) /\ includes r x /\ includes r y.
(** String constants and arrays of characters; a character constant counts beside one of these. *)
Definition string_ (x : opnd) : Prop :=
  sform (T (oty x)) = FString \/
  (scomp (T (oty x)) = Array \/ scomp (T (oty x)) = DynArr) /\ exists b, sbase (T (oty x)) = Some b /\ sform (T b) = FChar.
Definition char_const (x : opnd) : Prop := sform (T (oty x)) = FChar /\ ocl x = Nconst.
Definition both_strings (x y : opnd) : Prop :=
  string_ x /\ string_ y \/ string_ x /\ char_const y \/ char_const x /\ string_ y.
(** Pointers to records of which one extends the other, or pointers of the same type. *)
Definition pointers (x y : tid) : Prop :=
  sform (T x) = FPointer /\ sform (T y) = FPointer /\
  (x = y \/ exists p q, sbase (T x) = Some p /\ sbase (T y) = Some q /\ scomp (T p) = Record_ /\ scomp (T q) = Record_ /\
             (extends E p q \/ extends E q p)).
Definition nil_or (f : form) (x y : tid) : Prop :=
  sform (T x) = FNil /\ sform (T y) = f \/ sform (T x) = f /\ sform (T y) = FNil.

Inductive comparable (x y : opnd) : Prop :=
  | cmp_num r : numeric (oty x) -> numeric (oty y) -> smallest (oty x) (oty y) r -> comparable x y
  | cmp_char : sform (T (oty x)) = FChar -> sform (T (oty y)) = FChar -> comparable x y
  | cmp_str : both_strings x y -> comparable x y.
Inductive equatable (x y : opnd) : Prop :=
  | eq_cmp : comparable x y -> equatable x y
  | eq_bool : sform (T (oty x)) = FBool -> sform (T (oty y)) = FBool -> equatable x y
  | eq_byte : sform (T (oty x)) = FByte -> sform (T (oty y)) = FByte -> equatable x y
  | eq_set : set_ (oty x) -> set_ (oty y) -> equatable x y
  | eq_ptr : pointers (oty x) (oty y) -> equatable x y
  | eq_proc : sform (T (oty x)) = FProc -> oty x = oty y -> equatable x y
  | eq_nil f : f = FNil \/ f = FPointer \/ f = FProc -> nil_or f (oty x) (oty y) -> equatable x y.
(** The operand types of a dyadic operator and the type of the result. *)
Inductive oper : binop -> opnd -> opnd -> tid -> Prop :=
  | op_arith op x y r : op = OPlus \/ op = OMinus \/ op = OTimes -> numeric (oty x) -> smallest (oty x) (oty y) r -> oper op x y r
  | op_set op x y r : op = OPlus \/ op = OMinus \/ op = OTimes \/ op = OSlash -> set_ (oty x) -> smallest (oty x) (oty y) r -> oper op x y r
  | op_slash_int x y : int_ (oty x) -> int_ (oty y) -> oper OSlash x y (realtyp P)
  | op_slash_real x y r : real_ r -> smallest (oty x) (oty y) r -> oper OSlash x y r
  | op_div op x y r : op = ODiv \/ op = OMod -> int_ (oty x) -> int_ (oty y) -> smallest (oty x) (oty y) r -> oper op x y r
  | op_bool op x y : op = OAnd \/ op = OOr -> sform (T (oty x)) = FBool -> sform (T (oty y)) = FBool -> oper op x y (booltyp P)
  | op_eq op x y : op = OEql \/ op = ONeq -> equatable x y -> oper op x y (booltyp P)
  | op_cmp op x y : op = OLss \/ op = OLeq \/ op = OGtr \/ op = OGeq -> comparable x y -> oper op x y (booltyp P).
(** The types of a folded constant: the result may have another size. *)
Definition alike (r t : tid) : Prop := sform (T r) = sform (T t).
(** A constant divisor 0. *)
Definition zero_divisor (op : binop) (y : opnd) : Prop :=
  (op = OSlash \/ op = ODiv \/ op = OMod) /\ ocl y = Nconst /\ (int_ (oty y) /\ oiv y = 0 \/ real_ (oty y) /\ orz y = true).
Definition value_node (x : opnd) : Prop := ocl x <> Ntype /\ ocl x <> Nproc.

(** What an error-free module guarantees about operands: the type is known; constants have the types of literals; the predeclared types of one
    form are one type. *)
Definition operand (x : opnd) : Prop :=
  sform (T (oty x)) <> FUndef /\
  (ocl x = Nconst -> match sform (T (oty x)) with FBool | FChar | FInt | FReal | FLReal | FSet | FString | FNil => True | _ => False end) /\
  (sform (T (oty x)) = FString -> ocl x = Nconst).
Record predeclared : Prop := {
  p_bool : forall t, sform (T t) = FBool <-> t = booltyp P;
  p_real : forall t, sform (T t) = FReal <-> t = realtyp P;
  p_lreal : forall t, sform (T t) = FLReal <-> t = lrltyp P;
  p_char : forall t, sform (T t) = FChar <-> t = chartyp E;
  p_byte : forall t, sform (T t) = FByte <-> t = bytetyp E;
  p_string : forall t, sform (T t) = FString <-> t = stringtyp E;
  p_nil : forall t u, sform (T t) = FNil -> sform (T u) = FNil -> t = u;
}.
(** Extension levels. *)
Definition levels (lev : tid -> Z) : Prop :=
  forall t b, scomp (T t) = Record_ -> sbase (T t) = Some b -> lev t = lev b + 1.

(** Monadic operators and standard functions of one operand; membership and set constructors. *)
Inductive moper : monop -> tid -> tid -> Prop :=
  | mo_not t : sform (T t) = FBool -> moper MNot t t
  | mo_plus t : numeric t -> moper MPlus t t
  | mo_minus t : numeric t \/ set_ t -> moper MMinus t t
  | mo_abs t : numeric t -> moper MAbs t t
  | mo_cap t : sform (T t) = FChar -> moper MCap t t
  | mo_odd t : int_ t -> moper MOdd t (booltyp P).
End WithTable.
