(** Specification for C83: the rules for designators (report, chapter 8.1) and what a designator denotes in a typed memory. *)
From Verif Require Import Base AsgModel AsgSpec OperModel OperSpec DesigModel.

Section WithTable.
Variable E : env.
Notation T t := (str E t).
Variable own : tid -> name -> option field.

(** A field of a record type: its own or that of the nearest base type. *)
Inductive field_of : tid -> name -> tid -> field -> Prop :=
  | fo_own t n f : own t n = Some f -> field_of t n t f
  | fo_base t b n c f : own t n = None -> sbase (T t) = Some b -> field_of b n c f -> field_of t n c f.
(** A pointer stands for what it points to. *)
Inductive target (x : des) : tid -> Prop :=
  | tg_self : sform (T (ty_of x)) <> FPointer -> target x (ty_of x)
  | tg_ptr b : sform (T (ty_of x)) = FPointer -> ty_of x <> sysptrtyp E -> sbase (T (ty_of x)) = Some b -> target x b.
(** The selectors the language allows after a designator, and the type of the result. *)
Inductive lawful (x : des) : sel -> tid -> Prop :=
  | law_index y se a b : cls_of x < Nconst -> target x a -> scomp (T a) = Array \/ scomp (T a) = DynArr -> sbase (T a) = Some b ->
      value_node y -> int_ E (oty y) -> (ocl y = Nconst -> 0 <= oiv y /\ (scomp (T a) = Array -> oiv y < sn (T a))) ->
      lawful x (SIndex y se) b
  | law_name n r c f : cls_of x < Nconst -> target x r -> scomp (T r) = Record_ -> field_of r n c f -> lawful x (SName n) (fty f)
  | law_arrow b : cls_of x < Nconst -> sform (T (ty_of x)) = FPointer -> ty_of x <> sysptrtyp E -> sbase (T (ty_of x)) = Some b -> lawful x SArrow b
  | law_guard_ptr t b d : cls_of x < Nconst -> sform (T (ty_of x)) = FPointer -> sbase (T (ty_of x)) = Some b -> scomp (T b) = Record_ ->
      sform (T t) = FPointer -> sbase (T t) = Some d -> scomp (T d) = Record_ -> extends E d b -> lawful x (SGuard t) t
  | law_guard_rec t : cls_of x = Nvarpar -> scomp (T (ty_of x)) = Record_ -> scomp (T t) = Record_ -> extends E t (ty_of x) -> lawful x (SGuard t) t
  | law_guard_sys t : cls_of x < Nconst -> ty_of x = sysptrtyp E -> sform (T t) = FPointer -> lawful x (SGuard t) t.
(** Type guards name pointers to records (or records). *)
Definition record_guard (s : sel) : Prop :=
  forall t b, s = SGuard t -> sform (T t) = FPointer -> sbase (T t) = Some b -> scomp (T b) = Record_.
(** A designator that the compiler has accepted after the variable [x0], without type guards on SYSTEM.PTR. *)
Inductive built (x0 : des) : des -> Prop :=
  | b_var : built x0 x0
  | b_sel fuel x s x' : built x0 x -> select E own fuel x s = Ok (x', []) -> record_guard s ->
      ((exists t, s = SGuard t) -> ty_of x <> sysptrtyp E) -> built x0 x'.

(** *** Typed memory *)
Variable M : mem.
(** The storage that exists, and its types. *)
Inductive locty : loc -> tid -> Prop :=
  | lt_root o : locty (mkl o []) (dyn M o)
  | lt_field l u c n f : locty l u -> scomp (T u) = Record_ -> extends E u c -> own c n = Some f -> locty (sub l (PField c n)) (fty f)
  | lt_elem l a b i : locty l a -> scomp (T a) = Array -> sbase (T a) = Some b -> 0 <= i < sn (T a) -> locty (sub l (PElem i)) b
  | lt_open l a b i : locty l a -> scomp (T a) = DynArr -> sbase (T a) = Some b -> 0 <= i < mlen M l -> locty (sub l (PElem i)) b.
(** What a pointer of type [t] may point to. *)
Definition points (t u : tid) : Prop :=
  t = sysptrtyp E \/ exists b, sbase (T t) = Some b /\ (scomp (T b) = Record_ /\ extends E u b \/ scomp (T b) <> Record_ /\ u = b).
(** An array with the element type of an open array, at any number of dimensions. *)
Inductive opens : tid -> tid -> Prop :=
  | opn u t a b : scomp (T t) = DynArr -> scomp (T u) = Array \/ scomp (T u) = DynArr -> sbase (T u) = Some a -> sbase (T t) = Some b ->
      a = b \/ opens a b -> opens u t.
(** A variable of type [u] may be seen with type [t]. *)
Definition fits (u t : tid) : Prop := u = t \/ scomp (T t) = Record_ /\ extends E u t \/ opens u t.
Record memory : Prop := {
  m_ptr : forall l t o, locty l t -> sform (T t) = FPointer -> ptr M l = Some o -> points t (dyn M o);
  m_len : forall l a, locty l a -> scomp (T a) = Array -> mlen M l = sn (T a);
}.
(** The variables of a scope: only a parameter may stand for a variable of an extended type, and then its descriptor says so. *)
Definition variable (x : des) : Prop :=
  match x with
  | DVar c v t _ => (c = Nvar \/ c = Nvarpar) /\ exists u, locty (vloc M v) u /\ fits u t /\ (c = Nvar -> scomp (T t) = Record_ -> u = t) /\ (c = Nvarpar -> scomp (T t) = Record_ -> tag M v = u)
  | _ => False
  end.
(** The designator denotes the existing location [l], which may be used with the type of the designator. *)
Definition denotes (x : des) (l : loc) : Prop :=
  exists u, locty l u /\
    (sform (T (ty_of x)) = FPointer -> sform (T u) = FPointer /\ forall o, ptr M l = Some o -> points (ty_of x) (dyn M o)) /\
    (sform (T (ty_of x)) <> FPointer -> fits u (ty_of x)).
(** No index is negative, and no element of an empty open array is named with the constant 0. *)
Fixpoint checked (isext : tid -> tid -> bool) (x : des) : Prop :=
  match x with
  | DVar _ _ _ _ => True
  | DDeref x _ => checked isext x
  | DField x _ _ _ _ => checked isext x
  | DGuard x _ _ => checked isext x
  | DIndex x y se _ _ => checked isext x /\ (se = true \/ 0 <= oiv y) /\
      (ocl y = Nconst -> oiv y = 0 -> scomp (T (ty_of x)) = DynArr -> forall l, eval E isext M x = Ok l -> 0 < mlen M l)
  end.
(** Steps into a field that is exported read-only. *)
Definition ro_step (p : step) : Prop := match p with PField c n => exists f, own c n = Some f /\ frd f = true | PElem _ => False end.
(** Whether the designator follows a pointer. *)
Fixpoint follows (x : des) : bool :=
  match x with DVar _ _ _ _ => false | DDeref _ _ => true | DIndex x _ _ _ _ => follows x | DField x _ _ _ _ => follows x | DGuard x _ _ => follows x end.
(** The location is reached by the steps [ps] from the block that the last pointer points to, or from the variable. *)
Definition reached (v : nat) (x : des) (l : loc) (ps : list step) : Prop :=
  if follows x then path l = ps else root l = root (vloc M v) /\ path l = path (vloc M v) ++ ps.
End WithTable.
