(** The rules of the language for declarations, and what it means for the types of a program to be well formed. *)
From Verif Require Import Base DeclModel.
Open Scope nat_scope.

(** * Well-formed types *)
(** What a value of a type contains as part of itself: the elements of an array, the fields of a record and of its base. *)
Definition parts (s : struct) : list nat :=
  match s with
  | SArr b | SDyn b => [b]
  | SRec None fs => fs
  | SRec (Some b) fs => b :: fs
  | SUndef | SBasic | SPtr _ _ | SProc _ _ => []
  end.
(** A type is finite when the tree of its parts is: no type contains itself. *)
Inductive Finite (h : list struct) : nat -> Prop :=
| finite_intro : forall x s, nth_error h x = Some s -> s <> SUndef -> (forall y, In y (parts s) -> Finite h y) -> Finite h x.
Inductive kind := KRec | KArr | KDyn | KOther.
Definition kind_at (h : list struct) (x : nat) : option kind :=
  match nth_error h x with
  | Some (SRec _ _) => Some KRec
  | Some (SArr _) => Some KArr
  | Some (SDyn _) => Some KDyn
  | Some SBasic | Some (SPtr _ _) | Some (SProc _ _) => Some KOther
  | Some SUndef | None => None
  end.
Definition is_type (h : list struct) (x : nat) : Prop := kind_at h x <> None.
Definition not_open (h : list struct) (x : nat) : Prop := kind_at h x <> None /\ kind_at h x <> Some KDyn.
Definition composite (k : kind) : Prop := k <> KOther.
(** Elements and fields are not open arrays, the base of a record is a record, a pointer points to a record or an array, a procedure does
    not return a record or an array. *)
Definition Shaped (h : list struct) (s : struct) : Prop :=
  match s with
  | SUndef => False
  | SBasic => True
  | SArr b => not_open h b
  | SDyn b => is_type h b
  | SRec b fs => (forall x, b = Some x -> kind_at h x = Some KRec) /\ Forall (not_open h) fs
  | SPtr b _ => exists k, kind_at h b = Some k /\ composite k
  | SProc ps r => Forall (is_type h) ps /\ kind_at h r = Some KOther
  end.
Definition well_formed (h : list struct) : Prop :=
  forall x s, nth_error h x = Some s -> s <> SUndef -> Finite h x /\ Shaped h s.

(** * The rules of declaration *)
(** What is known of the visible names: a type of some kind, or something else. *)
Definition ctx := list (name * option kind).
Definition known (g : ctx * ctx) (n : name) : option (option kind) := match assoc (fst g) n with Some o => Some o | None => assoc (snd g) n end.
Definition kind_of (g : ctx * ctx) (t : texp) : option kind :=
  match t with
  | TName n => match known g n with Some (Some k) => Some k | _ => None end
  | TArr _ => Some KArr
  | TDyn _ => Some KDyn
  | TRec _ _ => Some KRec
  | TPtr _ | TProc _ _ => Some KOther
  end.
(** A named type may be used if it is declared; [self], the name being declared, only behind a pointer or in a procedure type
    ([self] is not [None] where parts of its values are described). *)
Definition usable (g : ctx * ctx) (self : option name) (n : name) (k : kind) : Prop := known g n = Some (Some k) /\ self <> Some n.
Fixpoint legal_type (g : ctx * ctx) (self : option name) (t : texp) : Prop :=
  match t with
  | TName n => exists k, usable g self n k
  | TArr t => legal_type g self t /\ kind_of g t <> Some KDyn
  | TDyn t => legal_type g self t
  | TRec bo fs =>
      (forall n, bo = Some n -> usable g self n KRec) /\
      (fix all (fs : list texp) : Prop := match fs with [] => True | f :: fs => (legal_type g self f /\ kind_of g f <> Some KDyn) /\ all fs end) fs
  | TPtr t => legal_type g None t /\ exists k, kind_of g t = Some k /\ composite k
  | TProc ps res =>
      (fix all (ps : list texp) : Prop := match ps with [] => True | p :: ps => legal_type g None p /\ all ps end) ps /\
      (forall n, res = Some n -> usable g None n KOther)
  end.
Definition fresh (l : ctx) (n : name) : Prop := assoc l n = None.
Fixpoint fresh_all (l : ctx) (ns : list name) : Prop :=
  match ns with [] => True | n :: ns => fresh l n /\ fresh_all ((n, None) :: l) ns end.
Definition entered (l : ctx) (ns : list name) : ctx := fold_left (fun l n => (n, None) :: l) ns l.
(** [waiting]: the names that pointers declared so far wait for; [count]: how many pointers had to wait. *)
Fixpoint legal (o l : ctx) (waiting : list name) (count : nat) (ds : list item) : Prop :=
  match ds with
  | [] => waiting = []
  | DConst n :: ds => fresh l n /\ legal o ((n, None) :: l) waiting count ds
  | DVar ns t :: ds =>
      fresh_all l ns /\ legal_type (entered l ns, o) None t /\ kind_of (entered l ns, o) t <> Some KDyn /\
      legal o (entered l ns) waiting count ds
  | DType n t :: ds =>
      fresh l n /\
      match kind_of (l, o) t with
      | None => False
      | Some k =>
          let l' := (n, Some k) :: l in
          (legal_type (l', o) (Some n) t /\
           legal o l' (match k with KOther => waiting | _ => filter (fun m => negb (m =? n)%Z) waiting end) count ds) \/
          (exists m, t = TPtr (TName m) /\ known (l', o) m = None /\ count < 64 /\ legal o l' (m :: waiting) (S count) ds)
      end
  end.
(** The names visible before a block, as the rules see them. *)
Definition ctx_of (h : list struct) (l : list (name * obj)) : ctx :=
  map (fun p => (fst p, match snd p with OTyp s => kind_at h s | OOther => None end)) l.
Definition good_names (h : list struct) (l : list (name * obj)) : Prop :=
  forall n s, assoc l n = Some (OTyp s) -> is_type h s /\ forall b, nth_error h s <> Some (SPtr b false).

(** * What a declaration means *)
(** Structure [s] is the type that [t] describes, with names meaning [env]; every structure described without a name is a new one,
    numbered [lo] or more. *)
Fixpoint denotes (h : list struct) (lo : nat) (env : name -> option obj) (t : texp) (s : nat) : Prop :=
  match t with
  | TName n => env n = Some (OTyp s)
  | TArr t => lo <= s /\ exists b, nth_error h s = Some (SArr b) /\ denotes h lo env t b
  | TDyn t => lo <= s /\ exists b, nth_error h s = Some (SDyn b) /\ denotes h lo env t b
  | TRec bo fs =>
      lo <= s /\ exists b rs, nth_error h s = Some (SRec b rs) /\
      match bo, b with None, None => True | Some n, Some x => env n = Some (OTyp x) | _, _ => False end /\
      (fix all (fs : list texp) (rs : list nat) : Prop :=
         match fs, rs with [], [] => True | f :: fs, r :: rs => denotes h lo env f r /\ all fs rs | _, _ => False end) fs rs
  | TPtr t => lo <= s /\ exists b named, nth_error h s = Some (SPtr b named) /\ denotes h lo env t b
  | TProc ps res =>
      lo <= s /\ exists rs r, nth_error h s = Some (SProc rs r) /\
      match res with None => r = 1 | Some n => env n = Some (OTyp r) end /\
      (fix all (ps : list texp) (rs : list nat) : Prop :=
         match ps, rs with [], [] => True | p :: ps, r :: rs => denotes h lo env p r /\ all ps rs | _, _ => False end) ps rs
  end.
