(** Who depends on whom. *)
From Verif Require Import Base.
(** q depends on r, directly or indirectly, or is r; [D] lists the direct dependants. *)
Inductive below (D : nat -> list nat) : nat -> nat -> Prop :=
| below_self : forall r, below D r r
| below_step : forall r c q, In c (D r) -> below D c q -> below D r q.
(** The number of keys of r that are still valid. *)
Fixpoint valid_keys (l : list (bool * nat)) (r : nat) : Z :=
  match l with [] => 0 | (v, q) :: l => (if v && (q =? r)%nat then 1 else 0) + valid_keys l r end.
(** What users do with resources: [USE r] asks for a key, [RELEASE r i] gives back the i-th key asked for, [TELL r c] announces a change, [DEPEND d r] says that d depends on r. *)
Inductive op := USE (r : nat) | RELEASE (r i : nat) | TELL (r : nat) (c : Z) | DEPEND (d r : nat).
(** Nobody depends on itself, directly or indirectly: all dependencies that are ever announced go down in rank. *)
Definition layered (rank : nat -> nat) (o : op) : Prop := match o with DEPEND d r => (rank r < rank d)%nat | _ => True end.
