(** Specification for C88: what must have been defined before a type can be written. *)
From Verif Require Import Base TdefModel.
Require Import Coq.Relations.Relation_Operators.
Local Open Scope list_scope.

Section Table.
Variable tab : list node.
Notation nd := (nd tab).
(** The parts of a type: what its text in C needs.  A pointer to a record needs no more than the tag of the record. *)
Definition record_type (t : tid) : Prop := match nshape (nd t) with SRec _ _ _ => True | _ => False end.
Inductive part : tid -> tid -> Prop :=
  | pt_base t b fs ms : nshape (nd t) = SRec (Some b) fs ms -> part t b
  | pt_field t b fs ms u : nshape (nd t) = SRec b fs ms -> In u fs -> part t u
  | pt_ptr t b : nshape (nd t) = SPtr b -> ~ record_type b -> part t b
  | pt_elem t b : nshape (nd t) = SArr b -> part t b
  | pt_result t r ps : nshape (nd t) = SProc (Some r) ps -> part t r
  | pt_param t r ps u : nshape (nd t) = SProc r ps -> In u ps -> part t u.
(** The types in the heads of the type-bound procedures of a record. *)
Inductive head_type (m : method) : tid -> Prop :=
  | ht_res r : mres m = Some r -> head_type m r
  | ht_par u : In u (mpar m) -> head_type m u.
Definition bound (t : tid) (m : method) : Prop := exists b fs ms, nshape (nd t) = SRec b fs ms /\ In m ms.
(** [complete D t]: after the items [D] the name of [t], or the names in its text, are known. *)
Inductive complete (D : list item) : tid -> Prop :=
  | co_outside t : nname (nd t) = Outside -> complete D t
  | co_named t : nname (nd t) = Local -> In (Def t) D -> complete D t
  | co_text t : nname (nd t) = Anonymous -> (forall u, part t u -> complete D u) -> complete D t.
(** [solid D t]: also the structures of the records without a name that [t] contains. *)
Inductive solid (D : list item) : tid -> Prop :=
  | so_outside t : nname (nd t) = Outside -> solid D t
  | so_named t : nname (nd t) = Local -> In (Def t) D -> solid D t
  | so_struct t : nname (nd t) = Anonymous -> record_type t -> In (Struct t) D -> solid D t
  | so_text t : nname (nd t) = Anonymous -> ~ record_type t -> (forall u, part t u -> solid D u) -> solid D t.
(** What an item needs. *)
Inductive needs : item -> tid -> Prop :=
  | nd_def t u : part t u -> needs (Def t) u
  | nd_struct t u : part t u -> needs (Struct t) u
  | nd_head t m u : head_type m u -> needs (Head t m) u.
Definition ordered (known : list item -> tid -> Prop) (D : list item) : Prop := forall A i B, D = A ++ i :: B -> forall u, needs i u -> known A u.
Definition once (D : list item) : Prop := forall A t B, D = A ++ Def t :: B -> ~ In (Def t) A /\ ~ In (Def t) B.
(** The file takes the parts of what it takes. *)
Definition closed : Prop := forall t, nshown (nd t) = true -> nname (nd t) <> Outside ->
  (forall u, part t u -> nshown (nd u) = true) /\ (forall m u, bound t m -> mshown m = true -> head_type m u -> nshown (nd u) = true).
(** A type of this module, or one without a name, and a part of it. *)
Definition contains (t u : tid) : Prop := nname (nd t) <> Outside /\ part t u.
Definition reaches_one (t u : tid) : Prop := nname (nd t) <> Outside /\ (part t u \/ exists m, bound t m /\ head_type m u).
Definition reaches : tid -> tid -> Prop := clos_trans tid reaches_one.
(** A type is loose if nothing stops DefineType from visiting it twice. *)
Definition loose (t : tid) : Prop := nname (nd t) = Anonymous \/ exists b, nshape (nd t) = SPtr b.
End Table.
(** A type is embedded in another one: a value of it is part of every value of the other one.  Oberon-2 only forbids that a type is embedded in itself. *)
Inductive embeds (tab : list node) : tid -> tid -> Prop :=
  | em_base t b fs ms : nshape (nd tab t) = SRec (Some b) fs ms -> embeds tab t b
  | em_field t b fs ms u : nshape (nd tab t) = SRec b fs ms -> In u fs -> embeds tab t u
  | em_elem t b : nshape (nd tab t) = SArr b -> embeds tab t b.
Definition cyclic {A} (R : A -> A -> Prop) : Prop := exists a, clos_trans A R a a.
