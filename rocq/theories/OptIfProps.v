(** Dead-branch elimination preserves behaviour (C51). *)
From Verif Require Import Base OptIfModel.

(** The meaning of an IF statement: guards are evaluated from the first on, with their effects and possible traps, until one holds; then its statements are run, or else the ELSE part. *)
Section Meaning.
Context {G S St : Type}.
Variable eval : G -> St -> res (bool * St).
Variable exec : S -> St -> res St.
Definition eval_guard (g : guard G) (st : St) : res (bool * St) :=
  match g with GConst b => Ok (b, st) | GExpr g => eval g st end.
Fixpoint run_if (bs : list (branch G S)) (els : S) (st : St) : res St :=
  match bs with
  | [] => exec els st
  | (g, s) :: bs => let* (b, st) := eval_guard g st in if b then exec s st else run_if bs els st
  end.
Definition run (n : node G S) (st : St) : res St :=
  match n with NIfElse bs els => run_if bs els st | NStats s => exec s st end.

Lemma run_rest : forall bs els st, let '(r, e) := rest bs els in run_if r e st = run_if bs els st.
Proof.
  induction bs as [| [[[] | g] s] bs IH]; intros els st; cbn [rest run_if eval_guard bind]; try reflexivity; [apply IH |].
  destruct (rest bs els) as [r e] eqn:E. cbn [run_if eval_guard]. destruct (eval g st) as [[b st'] | | |]; cbn [bind]; try reflexivity. destruct b; [reflexivity |]. specialize (IH els st'). rewrite E in IH. exact IH.
Qed.
(** For every meaning of guards and statements, every chain and every state, the optimised statement does the same. *)
Theorem C51_same : forall bs els st, run (OptIf bs els) st = run_if bs els st.
Proof.
  induction bs as [| [[[] | g] s] bs IH]; intros els st; cbn [OptIf].
  - reflexivity.
  - reflexivity.
  - cbn [run_if eval_guard bind]. destruct bs as [| b bs]; [reflexivity |]. apply IH.
  - pose proof (run_rest bs els) as R. destruct (rest bs els) as [r e]. cbn [run run_if eval_guard]. destruct (eval g st) as [[b st'] | | |]; cbn [bind]; try reflexivity. destruct b; [reflexivity | apply R].
Qed.
End Meaning.

(** Nothing dead is left: no constant guard remains, and what remains are branches of the original, in their order. *)
Inductive sub {A} : list A -> list A -> Prop :=
| sub_nil : sub [] []
| sub_drop : forall x a b, sub a b -> sub a (x :: b)
| sub_keep : forall x a b, sub a b -> sub (x :: a) (x :: b).
Definition open_guard {G S} (b : branch G S) : Prop := exists g, fst b = GExpr g.
Lemma sub_none : forall {A} (l : list A), sub [] l.
Proof. induction l; constructor; assumption. Qed.
Lemma rest_sub : forall {G S} (bs : list (branch G S)) els, let '(r, e) := rest bs els in Forall open_guard r /\ sub r bs /\ (e = els \/ In (GConst true, e) bs).
Proof.
  intros G S. induction bs as [| [[[] | g] s] bs IH]; intros els; cbn [rest].
  - split; [constructor |]. split; [constructor | left; reflexivity].
  - split; [constructor |]. split; [apply sub_none | right; left; reflexivity].
  - specialize (IH els). destruct (rest bs els) as [r e]. destruct IH as (A & B & C). split; [exact A |]. split; [constructor; exact B |]. destruct C; [left; assumption | right; right; assumption].
  - specialize (IH els). destruct (rest bs els) as [r e]. destruct IH as (A & B & C). split; [constructor; [exists g; reflexivity | exact A] |]. split; [apply sub_keep; exact B |]. destruct C; [left; assumption | right; right; assumption].
Qed.
Theorem C51_dead : forall {G S} (bs : list (branch G S)) els, bs <> [] ->
  match OptIf bs els with
  | NIfElse r e => r <> [] /\ Forall open_guard r /\ sub r bs /\ (e = els \/ In (GConst true, e) bs)
  | NStats s => s = els \/ In (GConst true, s) bs
  end.
Proof.
  intros G S. induction bs as [| [[[] | g] s] bs IH]; intros els N; cbn [OptIf].
  - congruence.
  - right. left. reflexivity.
  - destruct bs as [| b bs]; [left; reflexivity |]. specialize (IH els ltac:(discriminate)). destruct (OptIf (b :: bs) els).
    + destruct IH as (A & B & C & D). split; [exact A |]. split; [exact B |]. split; [constructor; exact C |]. destruct D; [left; assumption | right; right; assumption].
    + destruct IH; [left; assumption | right; right; assumption].
  - pose proof (rest_sub bs els) as R. destruct (rest bs els) as [r e]. destruct R as (A & B & C). split; [discriminate |]. split; [constructor; [exists g; reflexivity | exact A] |]. split; [apply sub_keep; exact B |]. destruct C; [left; assumption | right; right; assumption].
Qed.
(** IF FALSE THEN a ELSIF x THEN b ELSIF FALSE THEN c ELSIF y THEN d ELSIF TRUE THEN e ELSIF z THEN f ELSE g END becomes IF x THEN b ELSIF y THEN d ELSE e END. *)
Example C51_example : OptIf [(GConst false, 1); (GExpr 10, 2); (GConst false, 3); (GExpr 11, 4); (GConst true, 5); (GExpr 12, 6)] 7 = NIfElse [(GExpr 10, 2); (GExpr 11, 4)] 5
  /\ @OptIf Z Z [(GConst false, 1); (GConst false, 2)] 7 = NStats 7.
Proof. split; reflexivity. Qed.

Print Assumptions C51_same.
Print Assumptions C51_dead.
