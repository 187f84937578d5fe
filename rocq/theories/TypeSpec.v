(** Type extension and type-bound procedures, from the declarations alone. *)
From Verif Require Import Base TypeModel.

Definition base_of (ds : list tdecl) (i : nat) : option nat := match nth_error ds i with Some d => d_base d | None => None end.
Definition procs_of (ds : list tdecl) (i : nat) : list (Z * Z) := match nth_error ds i with Some d => d_procs d | None => [] end.
(** i is j or a direct or indirect extension of j. *)
Inductive extends (ds : list tdecl) : nat -> nat -> Prop :=
| ext_same : forall i, (i < length ds)%nat -> extends ds i i
| ext_base : forall i b j, base_of ds i = Some b -> extends ds b j -> extends ds i j.
(** The body that a call of the procedure [name] executes for the dynamic type i: the one declared for i, else the one for its base. *)
Inductive body_for (ds : list tdecl) (name : Z) : nat -> Z -> Prop :=
| body_own : forall i body, In (name, body) (procs_of ds i) -> body_for ds name i body
| body_base : forall i b body, ~ In name (map fst (procs_of ds i)) -> base_of ds i = Some b -> body_for ds name b body -> body_for ds name i body.
(** Declarations are sensible: bases are declared before, a type declares a name once, bodies are not at address 1. *)
Record sensible (ds : list tdecl) : Prop := {
  se_base : forall i b, base_of ds i = Some b -> (b < i)%nat;
  se_nodup : forall i, NoDup (map fst (procs_of ds i));
  se_body : forall i name body, In (name, body) (procs_of ds i) -> body <> EOM
}.
(** The number of proper base types. *)
Inductive depth (ds : list tdecl) : nat -> Z -> Prop :=
| dep_top : forall i, (i < length ds)%nat -> base_of ds i = None -> depth ds i 0
| dep_ext : forall i b k, base_of ds i = Some b -> depth ds b k -> depth ds i (k + 1).
