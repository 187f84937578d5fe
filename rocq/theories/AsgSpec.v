(** Specification for C55 and C61: values, the values of a type, and what an assignment stores. *)
From Verif Require Import Base AsgModel.

(** Values.  A pointer value names the type of the object it points to; a procedure value carries
    the result type and formal parameters of the procedure; a record value is the list of its
    parts, the part of the root record type first; [VReal m e] is m * 2^e. *)
Inductive value :=
  | VInt (z : Z) | VSet (s : Z) | VBool (b : bool) | VChar (c : Z) | VByte (b : Z)
  | VReal (m e : Z) | VNil | VPtr (d : tid) | VProc (r : tid) (ps : list param)
  | VArr (l : list value) | VRec (parts : list (list value)) | VStr (s : list Z).

Section WithTable.
Variable E : env.
Notation T t := (str E t).

(** [extends d b]: record type [d] is [b] or was declared, in some number of steps, as an
    extension of [b]. *)
Inductive extends : tid -> tid -> Prop :=
  | ext_refl t : extends t t
  | ext_step d c b : scomp (T d) = Record_ -> sbase (T d) = Some c -> extends c b -> extends d b.

(** Two parameter types are the same: identical, open arrays of the same element type, or procedure
    types with the same result and the same parameters. *)
Inductive same : tid -> tid -> Prop :=
  | same_refl t : same t t
  | same_open a b a' b' :
      scomp (T a) = DynArr -> scomp (T b) = DynArr ->
      sbase (T a) = Some a' -> sbase (T b) = Some b' -> same a' b' -> same a b
  | same_proc a b :
      sform (T a) = FProc -> sform (T b) = FProc -> sbase (T a) = sbase (T b) ->
      same_params (slink (T a)) (slink (T b)) -> same a b
with same_params : list param -> list param -> Prop :=
  | sp_nil : same_params [] []
  | sp_cons p q ps qs :
      pmode p = pmode q -> same (ptyp p) (ptyp q) -> same_params ps qs ->
      same_params (p :: ps) (q :: qs).

(** The values a variable of each type can have. *)
Inductive holds : tid -> value -> Prop :=
  | h_int t z : sform (T t) = FInt -> in_int (8 * ssize (T t)) z -> holds t (VInt z)
  | h_set t s : sform (T t) = FSet -> in_uint (8 * ssize (T t)) s -> holds t (VSet s)
  | h_bool t b : sform (T t) = FBool -> holds t (VBool b)
  | h_char t c : sform (T t) = FChar -> 0 <= c < 256 -> holds t (VChar c)
  | h_byte t b : sform (T t) = FByte -> 0 <= b < 256 -> holds t (VByte b)
  | h_real t m e : sform (T t) = FReal -> Z.abs m < 2 ^ 24 -> -149 <= e <= 104 -> holds t (VReal m e)
  | h_lreal t m e : sform (T t) = FLReal -> Z.abs m < 2 ^ 53 -> -1074 <= e <= 971 -> holds t (VReal m e)
  | h_nil t : sform (T t) = FNil \/ sform (T t) = FPointer \/ sform (T t) = FProc -> holds t VNil
  | h_ptr t b d : sform (T t) = FPointer -> t <> sysptrtyp E -> sbase (T t) = Some b ->
      extends d b -> holds t (VPtr d)
  | h_sysptr d : holds (sysptrtyp E) (VPtr d)
  | h_proc t r ps : sform (T t) = FProc -> sbase (T t) = Some r ->
      same_params (slink (T t)) ps -> holds t (VProc r ps)
  | h_arr t b l : scomp (T t) = Array -> sbase (T t) = Some b -> Z.of_nat (length l) = sn (T t) ->
      Forall (holds b) l -> holds t (VArr l)
  | h_open t b l : scomp (T t) = DynArr -> sbase (T t) = Some b -> Forall (holds b) l -> holds t (VArr l)
  | h_rec t ps : scomp (T t) = Record_ -> hparts t ps -> holds t (VRec ps)
with hparts : tid -> list (list value) -> Prop :=
  | hp_root t fs : sbase (T t) = None -> Forall2 holds (sfields (T t)) fs -> hparts t [fs]
  | hp_ext t b ps fs : sbase (T t) = Some b -> hparts b ps -> Forall2 holds (sfields (T t)) fs ->
      hparts t (ps ++ [fs]).

(** [stored old v v']: [v'] is [v] as a variable that held [old] shows it after the assignment:
    the same value, the leading parts of a record, the elements of a shorter array followed by the
    old remaining elements, a string with its terminating 0X followed by the old remaining
    elements, a character as the string of that one character, the 8-bit pattern of a one-byte
    value, a number as a real. *)
Inductive stored (old : value) : value -> value -> Prop :=
  | st_same v : stored old v v
  | st_parts ps qs : stored old (VRec (ps ++ qs)) (VRec ps)
  | st_array l o : old = VArr o -> (length l <= length o)%nat ->
      stored old (VArr l) (VArr (l ++ skipn (length l) o))
  | st_string s o : old = VArr o -> (length s < length o)%nat ->
      stored old (VStr s) (VArr (map VChar (s ++ [0]) ++ skipn (Datatypes.S (length s)) o))
  | st_byte_int z : -128 <= z < 128 -> stored old (VInt z) (VByte (z mod 256))
  | st_byte_char c : 0 <= c < 256 -> stored old (VChar c) (VByte c)
  | st_char_string c w : stored old (VStr (if c =? 0 then [] else [c])) w -> stored old (VChar c) w
  | st_real z m e : (0 <= e -> z = m * 2 ^ e) -> (e < 0 -> m = z * 2 ^ (- e)) ->
      stored old (VInt z) (VReal m e).

(** What a node can evaluate to. *)
Definition denotes (n : node) (v : value) : Prop :=
  if nclass n =? Nproc then
    v = VProc (otyp (nobj n)) (olink (nobj n))
  else if (nclass n =? Nconst) && is_form (sform (T (ntyp n))) FString then v = VStr (nstr n)
  else if (nclass n =? Nconst) && is_form (sform (T (ntyp n))) FChar then v = VChar (nch n)
  else holds (ntyp n) v.

(** The table of an error-free module: the predeclared types have their forms, composite types have
    form Comp and only they are composite, base types are present, and a base type of a record is a
    record.  (A missing or undefined base type is an error the compiler has already reported.) *)
Record table : Prop := {
  t_undf : sform (T (undftyp E)) = FUndef;
  t_undfc : scomp (T (undftyp E)) = Basic;
  t_char : sform (T (chartyp E)) = FChar;
  t_string : sform (T (stringtyp E)) = FString;
  t_stringc : scomp (T (stringtyp E)) = Basic;
  t_sysptr : sform (T (sysptrtyp E)) = FPointer;
  t_sysptrb : sbase (T (sysptrtyp E)) = Some (undftyp E);
  t_comp : forall t, sform (T t) = FComp <-> scomp (T t) <> Basic;
  t_pbase : forall t, sform (T t) = FPointer -> exists b, sbase (T t) = Some b;
  t_abase : forall t, scomp (T t) = Array \/ scomp (T t) = DynArr -> exists b, sbase (T t) = Some b;
  t_prbase : forall t, sform (T t) = FProc -> exists b, sbase (T t) = Some b;
  t_rbase : forall t b, scomp (T t) = Record_ -> sbase (T t) = Some b -> scomp (T b) = Record_;
  t_size : forall t, sform (T t) = FInt \/ sform (T t) = FSet -> 0 < ssize (T t);
}.
(** A node as the parser builds it: a string constant carries its length with the final 0X, and a
    character constant is a byte. *)
Definition good_node (n : node) : Prop :=
  (sform (T (ntyp n)) = FString -> nclass n = Nconst) /\
  nlen n = Z.of_nat (length (nstr n)) + 1 /\
  Forall (fun c => 0 <= c < 256) (nstr n) /\ 0 <= nch n < 256.
(** The node designates a variable, possibly seen through [SYSTEM.VAL]: node classes below the one of
    constants are designators. *)
Definition designates (n : node) : Prop :=
  nclass n < Nconst \/ nclass n = Nmop /\ exists c, nval n = Some c /\ c < Nconst.
(** The type of a variable. *)
Definition variable (t : tid) : Prop :=
  match sform (T t) with FUndef | FString | FNil | FNoTyp => False | _ => True end.
(** Chains of base types and nests of open arrays and procedure types are finite. *)
Definition ranked (rank : tid -> nat) : Prop :=
  (forall t b, scomp (T t) = Record_ -> sbase (T t) = Some b -> (rank b < rank t)%nat) /\
  (forall t b, scomp (T t) = DynArr -> sbase (T t) = Some b -> (rank b < rank t)%nat) /\
  (forall t p, sform (T t) = FProc -> In p (slink (T t)) -> (rank (ptyp p) < rank t)%nat).

(** Element types at any depth of an open array. *)
Inductive elem : tid -> tid -> Prop :=
  | el_here t b : scomp (T t) = DynArr -> sbase (T t) = Some b -> elem t b
  | el_deep t b e : scomp (T t) = DynArr -> sbase (T t) = Some b -> elem b e -> elem t e.
(** The array a string becomes when it is passed to an open array parameter. *)
Inductive passed : value -> value -> Prop :=
  | pa_same v : passed v v
  | pa_string s : passed (VStr s) (VArr (map VChar (s ++ [0])))
  | pa_char c : passed (VChar c) (VArr (map VChar ((if c =? 0 then [] else [c]) ++ [0]))).
(** Two values with the same array lengths at every depth: what a procedure can turn its open
    array parameter into. *)
Fixpoint shape (v w : value) : Prop :=
  match v, w with
  | VArr l, VArr m =>
      (fix go l m := match l, m with
                     | [], [] => True
                     | a :: l, b :: m => shape a b /\ go l m
                     | _, _ => False
                     end) l m
  | VArr _, _ | _, VArr _ => False
  | _, _ => True
  end.
End WithTable.
