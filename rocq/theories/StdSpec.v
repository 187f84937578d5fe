(** Specification for C84: the table of predeclared procedures (report, chapter 10.3 and appendix on SYSTEM). *)
From Verif Require Import Base AsgModel AsgSpec OperModel OperSpec LitProps StdModel.

Section WithTable.
Variable E : env.
Variable P : predecl.
Variable D : std.
Notation T t := (str E t).
Notation int x := (sform (T (aty x)) = FInt).

Definition constant (x : arg) : Prop := acl x = Nconst.
Definition value (x : arg) : Prop := acl x <> Ntype /\ acl x <> Nproc.
Definition type_name (x : arg) : Prop := acl x = Ntype.
Definition array (t : tid) : Prop := scomp (T t) = Array \/ scomp (T t) = DynArr.
(** A variable, possibly seen through SYSTEM.VAL. *)
Definition variable (x : arg) : Prop := acl x < Nconst \/ acl x = Nmop /\ exists c, avl x = Some c /\ c < Nconst.
Definition text (x : arg) : Prop := array (aty x) /\ exists b, sbase (T (aty x)) = Some b /\ sform (T b) = FChar.
(** The shortest integer type that contains the number. *)
Definition int_type (v : Z) (t : tid) : Prop := sform (T t) = FInt /\ fits (ssize (T t)) v /\ forall s, int_size s -> fits s v -> ssize (T t) <= s.
(** The value of the result if the argument is a constant with the given value. *)
Definition folded (x : arg) (v : Z) (r : option Z) : Prop := constant x /\ r = Some v \/ ~ constant x /\ r = None.
(** An integer argument converted to a shorter type keeps its value: constants that do not fit are rejected. *)
Definition kept (x : arg) (t : tid) : Prop := constant x -> fits (ssize (T t)) (aiv x).
(** The lengths given to NEW for the open dimensions. *)
Definition length_arg (x : arg) : Prop := value x /\ int x /\ (constant x -> 0 < aiv x <= maxidx D).
Inductive lengths : tid -> list arg -> Prop :=
  | ln_end b : scomp (T b) <> DynArr -> lengths b []
  | ln_dim b c x xs : scomp (T b) = DynArr -> sbase (T b) = Some c -> length_arg x -> lengths c xs -> lengths b (x :: xs).
(** Dimension [n] of an array type. *)
Inductive dimension : tid -> nat -> tid -> Prop :=
  | dm_0 t : array t -> dimension t 0 t
  | dm_S t b n u : array t -> sbase (T t) = Some b -> dimension b n u -> dimension t (S n) u.
(** An address: an integer constant, or a pointer or integer of the size of addresses. *)
Definition adr (x : arg) : Prop :=
  value x /\ (constant x /\ int x /\ ssize (T (aty x)) < ssize (T (adrtyp D)) \/ (sform (T (aty x)) = FPointer \/ int x) /\ ssize (T (aty x)) = adrsz D).
Definition scalar (f : form) : Prop := match f with FByte | FBool | FChar | FInt | FReal | FLReal | FSet | FPointer | FProc => True | _ => False end.
(** What SYSTEM.VAL takes. *)
Definition any (t : tid) : Prop := sform (T t) <> FString /\ sform (T t) <> FNoTyp /\ scomp (T t) <> DynArr.

(** The results of SHORT and LONG: the next type in SHORTINT, INTEGER, LONGINT; beyond the ends 8 and 64 bits. *)
Definition sz (t : tid) : Z := ssize (T t).
Inductive shortened (t : tid) : tid -> Prop :=
  | sh_long : sz (linttyp D) < sz t -> shortened t (linttyp D)
  | sh_int : sz (inttyp D) < sz t <= sz (linttyp D) -> shortened t (inttyp D)
  | sh_short : sz (sinttyp D) < sz t <= sz (inttyp D) -> sz t <= sz (linttyp D) -> shortened t (sinttyp D)
  | sh_least : sz t <= sz (sinttyp D) -> sz t <= sz (inttyp D) -> sz t <= sz (linttyp D) -> shortened t (ityp D 1).
Inductive lengthened (t : tid) : tid -> Prop :=
  | lo_short : sz t < sz (sinttyp D) -> lengthened t (sinttyp D)
  | lo_int : sz (sinttyp D) <= sz t < sz (inttyp D) -> lengthened t (inttyp D)
  | lo_long : sz (inttyp D) <= sz t < sz (linttyp D) -> sz (sinttyp D) <= sz t -> lengthened t (linttyp D)
  | lo_most : sz (linttyp D) <= sz t -> sz (inttyp D) <= sz t -> sz (sinttyp D) <= sz t -> lengthened t (ityp D 8).
(** Arguments, type and constant value of the calls; statements have no type. *)
Inductive legal : fct -> list arg -> tid -> option Z -> Prop :=
  | l_halt n : constant n -> int n -> 0 <= aiv n <= 255 -> legal Halt [n] (notyp D) None
  | l_new p b ns : variable p -> aro p = false -> sform (T (aty p)) = FPointer -> sbase (T (aty p)) = Some b -> scomp (T b) <> Basic -> lengths b ns ->
      legal New (p :: ns) (notyp D) None
  | l_abs x : value x -> numeric E (aty x) -> ~ (constant x /\ int x /\ aiv x = - 2 ^ 63) -> legal Abs [x] (aty x) None
  | l_cap x : value x -> sform (T (aty x)) = FChar -> legal Cap [x] (aty x) None
  | l_odd x : value x -> int x -> legal Odd [x] (booltyp P) None
  | l_ord x r : value x -> sform (T (aty x)) = FChar -> folded x (aiv x) r -> legal Ord [x] (inttyp D) r
  | l_entier x r : value x -> real_ E (aty x) -> (constant x -> abig x = false) -> folded x (afl x) r -> legal Entier [x] (linttyp D) r
  | l_chr x r : value x -> int x -> (constant x -> 0 <= aiv x <= 255) -> folded x (aiv x) r -> legal Chr [x] (chartyp E) r
  | l_short x t r : value x -> int x -> shortened (aty x) t -> kept x t -> folded x (aiv x) r -> legal Short [x] t r
  | l_short_real x : value x -> sform (T (aty x)) = FLReal -> (constant x -> aovf x = false) -> legal Short [x] (realtyp P) None
  | l_long x t r : value x -> int x -> lengthened (aty x) t -> folded x (aiv x) r -> legal Long [x] t r
  | l_long_char x r : value x -> sform (T (aty x)) = FChar -> folded x (aiv x) r -> legal Long [x] (linttyp D) r
  | l_long_real x : value x -> sform (T (aty x)) = FReal -> legal Long [x] (lrltyp P) None
  | l_min_bool x : type_name x -> sform (T (aty x)) = FBool -> legal Min [x] (booltyp P) (Some 0)
  | l_min_char x : type_name x -> sform (T (aty x)) = FChar -> legal Min [x] (chartyp E) (Some 0)
  | l_min_int x v t : type_name x -> int x -> fits (ssize (T (aty x))) v -> (forall w, fits (ssize (T (aty x))) w -> v <= w) -> int_type v t -> legal Min [x] t (Some v)
  | l_min_set x : type_name x -> sform (T (aty x)) = FSet -> legal Min [x] (inttyp D) (Some 0)
  | l_min_real x : type_name x -> sform (T (aty x)) = FReal -> legal Min [x] (realtyp P) None
  | l_min_lreal x : type_name x -> sform (T (aty x)) = FLReal -> legal Min [x] (lrltyp P) None
  | l_max_bool x : type_name x -> sform (T (aty x)) = FBool -> legal Max [x] (booltyp P) (Some 1)
  | l_max_char x : type_name x -> sform (T (aty x)) = FChar -> legal Max [x] (chartyp E) (Some 255)
  | l_max_int x v t : type_name x -> int x -> fits (ssize (T (aty x))) v -> (forall w, fits (ssize (T (aty x))) w -> w <= v) -> int_type v t -> legal Max [x] t (Some v)
  | l_max_set x : type_name x -> sform (T (aty x)) = FSet -> legal Max [x] (inttyp D) (Some (ssize (T (aty x)) * 8 - 1))
  | l_max_real x : type_name x -> sform (T (aty x)) = FReal -> legal Max [x] (realtyp P) None
  | l_max_lreal x : type_name x -> sform (T (aty x)) = FLReal -> legal Max [x] (lrltyp P) None
  | l_size x t : type_name x -> scalar (sform (T (aty x))) \/ scomp (T (aty x)) = Array \/ scomp (T (aty x)) = Record_ -> int_type (szof D (aty x)) t ->
      legal Size [x] t (Some (szof D (aty x)))
  | l_inc f x : f = Inc \/ f = Dec -> variable x -> int x -> aro x = false -> legal f [x] (notyp D) None
  | l_incn f x n : f = Inc \/ f = Dec -> variable x -> int x -> aro x = false -> value n -> int n ->
      (constant n /\ fits (ssize (T (aty x))) (aiv n) \/ ~ constant n /\ ssize (T (aty n)) <= ssize (T (aty x))) -> legal f [x; n] (notyp D) None
  | l_incl f s x : f = Incl \/ f = Excl -> variable s -> sform (T (aty s)) = FSet -> aro s = false -> value x -> int x ->
      (constant x -> 0 <= aiv x < 8 * ssize (T (aty s))) -> legal f [s; x] (notyp D) None
  | l_len_fix x ns u t : value x -> lenarg x ns u -> scomp (T u) = Array -> int_type (sn (T u)) t -> legal Len (x :: ns) t (Some (sn (T u)))
  | l_len_open x ns u : value x -> lenarg x ns u -> scomp (T u) = DynArr -> legal Len (x :: ns) (linttyp D) None
  | l_copy x v : constant x /\ sform (T (aty x)) = FChar \/ value x /\ (text x \/ sform (T (aty x)) = FString) -> variable v -> text v -> aro v = false ->
      legal Copy [x; v] (notyp D) None
  | l_ash x n t r : value x -> int x -> value n -> int n -> t = (if ssize (T (aty x)) <? ssize (T (linttyp D)) then linttyp D else aty x) ->
      (constant x /\ constant n /\ -62 <= aiv n <= 62 /\ in_int 64 (if aiv n >=? 0 then Z.abs (aiv x) * 2 ^ aiv n else aiv x) /\
         r = Some (if aiv n >=? 0 then aiv x * 2 ^ aiv n else aiv x / 2 ^ (- aiv n)) \/
       ~ (constant x /\ constant n) /\ r = None) -> legal Ash [x; n] t r
  | l_assert x : value x -> sform (T (aty x)) = FBool -> ~ (constant x /\ aiv x = 0) -> legal Assert [x] (notyp D) None
  | l_assertn x n : value x -> sform (T (aty x)) = FBool -> ~ (constant x /\ aiv x = 0) -> constant n -> int n -> 0 <= aiv n <= 255 -> legal Assert [x; n] (notyp D) None
  | l_shift f x n : f = Lsh \/ f = Rot -> value x -> int x \/ sform (T (aty x)) = FByte \/ sform (T (aty x)) = FChar \/ sform (T (aty x)) = FSet ->
      value n -> int n -> legal f [x; n] (aty x) None
  | l_get a v : adr a -> variable v -> scalar (sform (T (aty v))) -> legal Get [a; v] (notyp D) None
  | l_put a x : adr a -> value x -> scalar (sform (T (aty x))) -> legal Put [a; x] (notyp D) None
  | l_bit a n : adr a -> value n -> int n -> legal Bit [a; n] (booltyp P) None
  | l_val t x r : type_name t -> any (aty t) -> value x -> any (aty x) ->
      (constant x /\ int x /\ int t /\ kept x (aty t) /\ r = Some (aiv x) \/
       ~ (constant x /\ int x /\ int t) /\ r = None) -> legal Val [t; x] (aty t) r
  | l_sysnew p n : variable p -> sform (T (aty p)) = FPointer -> value n -> int n -> legal SysNew [p; n] (notyp D) None
  | l_move a b n : adr a -> adr b -> value n -> int n -> legal Move [a; b; n] (notyp D) None
with lenarg : arg -> list arg -> tid -> Prop :=
  | la_0 x u : dimension (aty x) 0 u -> lenarg x [] u
  | la_n x n u : constant n -> int n -> 0 <= aiv n -> ssize (T (aty n)) = 1 -> dimension (aty x) (Z.to_nat (aiv n)) u -> lenarg x [n] u.

(** Which argument a call changes. *)
Definition changed (f : fct) (xs : list arg) : option arg :=
  match f, xs with
  | New, x :: _ | Inc, x :: _ | Dec, x :: _ | Incl, x :: _ | Excl, x :: _ | SysNew, x :: _ => Some x
  | Copy, [_; x] | Get, [_; x] | GetReg, [_; x] => Some x
  | _, _ => None
  end.
(** The arguments as an error-free module has them: the type is known, an integer constant is a number of 64 bits that fits its type, and the types below the indices belong together. *)
Fixpoint chain (t : tid) (ts : list tid) : Prop := match ts with [] => True | a :: ts => array a /\ sbase (T a) = Some t /\ chain a ts end.
Definition good_arg (x : arg) : Prop :=
  sform (T (aty x)) <> FUndef /\
  (constant x -> sform (T (aty x)) = FInt -> in_int 64 (aiv x) /\ fits (ssize (T (aty x))) (aiv x)) /\
  (constant x -> sform (T (aty x)) = FChar -> 0 <= aiv x <= 255) /\
  (constant x -> sform (T (aty x)) = FBool -> aiv x = 0 \/ aiv x = 1) /\
  chain (aty x) (aix x).
(** The predeclared types. *)
Record predefined : Prop := {
  d_ityp : forall s, s = 1 \/ s = 2 \/ s = 4 \/ s = 8 -> sform (T (ityp D s)) = FInt /\ ssize (T (ityp D s)) = s;
  d_sizes : forall t, sform (T t) = FInt -> ssize (T t) = 1 \/ ssize (T t) = 2 \/ ssize (T t) = 4 \/ ssize (T t) = 8;
  d_int : sform (T (inttyp D)) = FInt;
  d_intsize : 2 <= ssize (T (inttyp D));
  d_set : forall t, sform (T t) = FSet -> ssize (T t) = 4 \/ ssize (T t) = 8;
  d_lint : sform (T (linttyp D)) = FInt;
  d_lintsize : 2 <= ssize (T (linttyp D));
  d_sint : sform (T (sinttyp D)) = FInt;
  d_adr : sform (T (adrtyp D)) = FInt;
  d_notyp : sform (T (notyp D)) = FNoTyp;
  d_bool : sform (T (booltyp P)) = FBool;
  d_real : sform (T (realtyp P)) = FReal;
  d_lreal : sform (T (lrltyp P)) = FLReal;
  d_len : forall t, in_int 64 (sn (T t));
  d_szof : forall t, in_int 64 (szof D t);
}.
End WithTable.
