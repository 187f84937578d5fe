(** Where the pointers of a variable are, from its type alone. *)
From Verif Require Import Base LayModel EnumModel.
(** [place s o]: at offset o of a variable of type s there is a pointer the collector has to know. *)
Inductive place : styp -> Z -> Prop :=
  | in_pointer : forall z, place (SPtr true z) 0
  | in_array : forall n e z i o, 0 <= i < n -> place e o -> place (SArr n e z) (i * size_of e + o)
  | in_record : forall fs size align gap o, placeF fs o -> place (SRec true fs size align gap) o
with placeF : sfields -> Z -> Prop :=
  | in_field : forall fs vis t adr o, place t o -> placeF (SAdd fs vis t adr) (adr + o)
  | in_fields : forall fs vis t adr o, placeF fs o -> placeF (SAdd fs vis t adr) o
  | in_base : forall fs size align gap o, placeF fs o -> placeF (SExt true fs size align gap) o.
(** The innermost element type of an array. *)
Fixpoint innermost (s : styp) : styp := match s with SArr _ e _ => innermost e | _ => s end.
(** The descriptor of a record type lies in memory at [d]: after its first word the table of the offsets. *)
Definition described (A : Z) (m : memory) (d : Z) (s : styp) : Prop :=
  forall i x, nth_error (TDesc A s) i = Some x -> m (d + A + A * Z.of_nat i) = Some x.
(** A program ready for the collector: the types are declared ones, the descriptors are there, the variables lie in memory and do not overlap. *)
Definition ready (Al A : Z) (wf : typ -> Prop) (m : memory) (vars : list var) : Prop :=
  Forall (fun v => (exists t, wf t /\ TypSize Al A t = Ok (vtyp v)) /\
                   (forall fs size align gap, innermost (vtyp v) = SRec true fs size align gap -> described A m (vdesc v) (innermost (vtyp v))) /\
                   (forall o, place (vtyp v) o -> m (vadr v + o) <> None)) vars /\
  ForallOrdPairs (fun v w => vadr v + size_of (vtyp v) <= vadr w \/ vadr w + size_of (vtyp w) <= vadr v) vars.
