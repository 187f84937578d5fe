(** Specification for C68: what is transferred by an assignment and by parameter passing. *)
From Verif Require Import Base AsgModel AsgSpec XferModel.

(** The byte at an address; [None] outside of every object. *)
Definition byte (m : mem) (b : nat) (i : Z) : option Z :=
  if i <? 0 then None else
  match nth_error m b with None => None | Some l => nth_error l (Z.to_nat i) end.
(** [m'] is [m] except that the [k] bytes at [dst] are those that were at [src]. *)
Definition copied (m m' : mem) (dst src : loc) (k : Z) : Prop :=
  forall b i, byte m' b i =
    if Nat.eqb b (fst dst) && (snd dst <=? i) && (i <? snd dst + k)
    then byte m (fst src) (snd src + (i - snd dst)) else byte m b i.

Section WithTable.
Variable E : env.
Notation T t := (str E t).

(** Sizes: an array takes the space of its elements, an extension is not smaller than its base type,
    a pointer has one size, bytes and characters have size 1; there is one type of string constants. *)
Record sizes : Prop := {
  z_pos : forall t, 0 <= ssize (T t);
  z_n : forall t, scomp (T t) = Array -> 0 <= sn (T t);
  z_array : forall t b, scomp (T t) = Array -> sbase (T t) = Some b -> ssize (T t) = sn (T t) * ssize (T b);
  z_ext : forall t b, scomp (T t) = Record_ -> sbase (T t) = Some b -> ssize (T b) <= ssize (T t);
  z_ptr : forall t u, sform (T t) = FPointer -> sform (T u) = FPointer -> ssize (T t) = ssize (T u);
  z_byte : forall t, sform (T t) = FByte -> ssize (T t) = 1;
  z_char : ssize (T (chartyp E)) = 1;
  z_bytetyp : sform (T (bytetyp E)) = FByte;
  z_string : forall t, sform (T t) = FString -> t = stringtyp E;
}.

(** [extent t lens ds e]: an array of type [t], with the lengths [lens] for the open ones among its
    dimensions, has the lengths [ds] and elements of type [e]. *)
Inductive extent : tid -> list Z -> list Z -> tid -> Prop :=
  | ex_open t b l lens ds e : scomp (T t) = DynArr -> sbase (T t) = Some b -> 0 <= l ->
      extent b lens ds e -> extent t (l :: lens) (l :: ds) e
  | ex_fix t b ds e : scomp (T t) = Array -> sbase (T t) = Some b -> scomp (T b) <> DynArr ->
      extent b [] ds e -> extent t [] (sn (T t) :: ds) e
  | ex_end t : scomp (T t) <> Array -> scomp (T t) <> DynArr -> extent t [] [] t.
(** The lengths and the element type of the variable a designator denotes; an index takes away the
    first length. *)
Inductive shaped : dsg -> list Z -> tid -> Prop :=
  | sd_obj c t lens tag ds e : extent t lens ds e -> shaped (DObj c t lens tag) ds e
  | sd_index t d l ds e : shaped d (l :: ds) e -> sbase (T (dtyp d)) = Some t -> shaped (DIndex t d) ds e
  | sd_guard t d : scomp (T t) <> Array -> scomp (T t) <> DynArr -> shaped (DGuard t d) [] t.
Definition total (ds : list Z) (e : tid) : Z := fold_right Z.mul 1 ds * ssize (T e).

(** The lengths that must go with an open array parameter of type [t] when the actual has lengths
    [ds] and elements of type [e]: one for every open dimension; an ARRAY OF BYTE takes
    the number of bytes. *)
Inductive lengths : tid -> list Z -> tid -> list Z -> Prop :=
  | ln_end t ds e : scomp (T t) <> DynArr -> lengths t ds e []
  | ln_byte t b ds e : scomp (T t) = DynArr -> sbase (T t) = Some b -> sform (T b) = FByte ->
      lengths t ds e [total ds e]
  | ln_open t b l ds e ls : scomp (T t) = DynArr -> sbase (T t) = Some b -> sform (T b) <> FByte ->
      lengths b ds e ls -> lengths t (l :: ds) e (l :: ls).

(** The number of bytes an assignment transfers: the characters of a string and its 0X, the smaller
    of the two variables otherwise. *)
Definition amount (x : tid) (y : node) : Z :=
  if is_form (sform (T (ntyp y))) FString then Z.of_nat (length (nstr y)) + 1
  else Z.min (ssize (T x)) (ssize (T (ntyp y))).
(** Is this the only thing whose dynamic type can differ from its static type: a record that is a
    VAR parameter or is denoted by a pointer? *)
Definition polymorphic (x : dsg) : Prop :=
  scomp (T (dtyp x)) = Record_ /\ (dclass x = Nderef \/ dclass x = Nvarpar).
End WithTable.
