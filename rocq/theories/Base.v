(** Common definitions for the voc model: outcomes of generated C code, machine integers,
    and checked arrays.  No repository routine is modelled here except the index check. *)
From Coq Require Export ZArith List Bool Lia.
From Coq Require Export ZifyBool ZifyNat ZifyN.
Export ListNotations.
Global Open Scope Z_scope.

Ltac Zify.zify_post_hook ::= Z.div_mod_to_equations.

(** Outcome of running a piece of generated code:
    [Ok v]   normal result;
    [Trap c] the run-time system stops the program with HALT code [c]
             (SYSTEM.h 113: __HALT -> Modules_Halt);
    [UB]     the generated C has no defined meaning (signed overflow, bad shift, division by 0,
             out-of-bounds access);
    [Fuel]   the fuel argument of the model ran out (never an outcome of the program). *)
Inductive res (A : Type) : Type :=
| Ok (a : A)
| Trap (c : Z)
| UB
| Fuel.
Arguments Ok {A} a.
Arguments Trap {A} c.
Arguments UB {A}.
Arguments Fuel {A}.

Definition bind {A B : Type} (m : res A) (k : A -> res B) : res B :=
  match m with
  | Ok a => k a
  | Trap c => Trap c
  | UB => UB
  | Fuel => Fuel
  end.

Notation "'let*' x ':=' m 'in' k" := (bind m (fun x => k))
  (at level 200, x pattern, m at level 100, k at level 200, right associativity).

(** Two's complement machine integers of [w] bits. *)
Definition min_int (w : Z) : Z := - 2 ^ (w - 1).
Definition max_int (w : Z) : Z := 2 ^ (w - 1) - 1.
Definition in_int (w x : Z) : Prop := - 2 ^ (w - 1) <= x < 2 ^ (w - 1).
Definition in_intb (w x : Z) : bool := (- 2 ^ (w - 1) <=? x) && (x <? 2 ^ (w - 1)).
Definition in_uint (w x : Z) : Prop := 0 <= x < 2 ^ w.

(** Conversion of any integer to a signed / unsigned [w]-bit type (modulo 2^w, as gcc and clang define it). *)
Definition wrap_u (w x : Z) : Z := x mod 2 ^ w.
Definition wrap_s (w x : Z) : Z := (x + 2 ^ (w - 1)) mod 2 ^ w - 2 ^ (w - 1).

(** Result of a signed C operation whose exact result is [x], on [w]-bit operands: overflow is undefined. *)
Definition chk (w x : Z) : res Z := if in_intb w x then Ok x else UB.

Lemma in_intb_iff : forall w x, in_intb w x = true <-> in_int w x.
Proof. intros. unfold in_intb, in_int. lia. Qed.

Lemma chk_ok : forall w x, in_int w x -> chk w x = Ok x.
Proof. intros w x H. unfold chk. apply in_intb_iff in H. now rewrite H. Qed.

Lemma chk_inv : forall w x y, chk w x = Ok y -> y = x /\ in_int w x.
Proof.
  intros w x y H. unfold chk in H. destruct (in_intb w x) eqn:E; [|discriminate].
  apply in_intb_iff in E. inversion H; subst; auto.
Qed.

(** Constants used for concrete widths; proved by computation. *)
Lemma in_int8 : forall x, in_int 8 x <-> -128 <= x <= 127.
Proof. intros. unfold in_int. change (2 ^ (8 - 1)) with 128. lia. Qed.
Lemma in_int16 : forall x, in_int 16 x <-> -32768 <= x <= 32767.
Proof. intros. unfold in_int. change (2 ^ (16 - 1)) with 32768. lia. Qed.
Lemma in_int32 : forall x, in_int 32 x <-> -2147483648 <= x <= 2147483647.
Proof. intros. unfold in_int. change (2 ^ (32 - 1)) with 2147483648. lia. Qed.
Lemma in_int64 : forall x, in_int 64 x <-> -9223372036854775808 <= x <= 9223372036854775807.
Proof. intros. unfold in_int. change (2 ^ (64 - 1)) with 9223372036854775808. lia. Qed.

Lemma wrap_s_id : forall w x, 0 < w -> in_int w x -> wrap_s w x = x.
Proof.
  intros w x Hw H. unfold wrap_s, in_int in *.
  assert (2 ^ w = 2 * 2 ^ (w - 1)).
  { rewrite <- Z.pow_succ_r by lia. f_equal. lia. }
  rewrite Z.mod_small; lia.
Qed.

Lemma wrap_s_range : forall w x, 0 < w -> in_int w (wrap_s w x).
Proof.
  intros w x Hw. unfold wrap_s, in_int.
  assert (2 ^ w = 2 * 2 ^ (w - 1)).
  { rewrite <- Z.pow_succ_r by lia. f_equal. lia. }
  pose proof (Z.pow_pos_nonneg 2 (w - 1) ltac:(lia) ltac:(lia)).
  pose proof (Z.mod_pos_bound (x + 2 ^ (w - 1)) (2 ^ w) ltac:(lia)). lia.
Qed.

Lemma wrap_u_id : forall w x, in_uint w x -> wrap_u w x = x.
Proof. intros w x H. unfold wrap_u, in_uint in *. apply Z.mod_small; auto. Qed.

Lemma wrap_u_range : forall w x, 0 <= w -> in_uint w (wrap_u w x).
Proof.
  intros w x Hw. unfold wrap_u, in_uint. apply Z.mod_pos_bound.
  apply Z.pow_pos_nonneg; lia.
Qed.

(** An Oberon array is a list; [LEN] is its length.  Reading [a[i]] in checked code:
    SYSTEM.h 120 [__X(i, ub)] is [((i)<(ub))?i:(__HALT(-2),0)] with a signed [i], so an index
    beyond the end traps with -2, but a negative index passes the check and the access itself is
    out of bounds ([UB]). *)
Definition getA {A : Type} (a : list A) (i : Z) : res A :=
  if i <? Z.of_nat (length a) then
    if i <? 0 then UB else
    match nth_error a (Z.to_nat i) with Some x => Ok x | None => UB end
  else Trap (-2).

Fixpoint set_nth {A : Type} (n : nat) (x : A) (l : list A) : list A :=
  match n, l with
  | _, [] => []
  | O, _ :: r => x :: r
  | S n', y :: r => y :: set_nth n' x r
  end.

(** Storing [a[i] := x] in checked code; same check as [getA]. *)
Definition setA {A : Type} (a : list A) (i : Z) (x : A) : res (list A) :=
  if i <? Z.of_nat (length a) then
    if i <? 0 then UB else Ok (set_nth (Z.to_nat i) x a)
  else Trap (-2).

Lemma set_nth_length : forall A n (x : A) l, length (set_nth n x l) = length l.
Proof. intros A n. induction n as [|n IH]; intros x [|y l]; simpl; auto. Qed.

Lemma nth_set_nth_eq : forall A n (x : A) l, (n < length l)%nat -> nth_error (set_nth n x l) n = Some x.
Proof. intros A n. induction n as [|n IH]; intros x [|y l] H; simpl in *; try lia; auto. apply IH. lia. Qed.

Lemma nth_set_nth_neq : forall A n m (x : A) l, n <> m -> nth_error (set_nth n x l) m = nth_error l m.
Proof.
  intros A n. induction n as [|n IH]; intros [|m] x [|y l] H; simpl; auto; try congruence.
Qed.

Lemma set_nth_firstn : forall A n (x : A) l, firstn n (set_nth n x l) = firstn n l.
Proof. intros A n. induction n as [|n IH]; intros x [|y l]; simpl; auto. f_equal. auto. Qed.

Lemma set_nth_split : forall A n (x : A) l, (n < length l)%nat ->
  set_nth n x l = firstn n l ++ x :: skipn (S n) l.
Proof.
  intros A n. induction n as [|n IH]; intros x [|y l] H; simpl in *; try lia; auto.
  f_equal. rewrite IH by lia. reflexivity.
Qed.

Lemma getA_ok : forall A (a : list A) i x, 0 <= i ->
  nth_error a (Z.to_nat i) = Some x -> getA a i = Ok x.
Proof.
  intros A a i x Hi H. unfold getA.
  assert (Z.to_nat i < length a)%nat by (apply nth_error_Some; congruence).
  replace (i <? Z.of_nat (length a)) with true by lia.
  replace (i <? 0) with false by lia. now rewrite H.
Qed.

Lemma getA_inv : forall A (a : list A) i x, getA a i = Ok x ->
  0 <= i < Z.of_nat (length a) /\ nth_error a (Z.to_nat i) = Some x.
Proof.
  intros A a i x H. unfold getA in H.
  destruct (i <? Z.of_nat (length a)) eqn:E1; [|discriminate].
  destruct (i <? 0) eqn:E2; [discriminate|].
  destruct (nth_error a (Z.to_nat i)) eqn:E3; inversion H; subst. split; [lia|auto].
Qed.

Lemma setA_ok : forall A (a : list A) i x, 0 <= i < Z.of_nat (length a) ->
  setA a i x = Ok (set_nth (Z.to_nat i) x a).
Proof.
  intros A a i x Hi. unfold setA.
  replace (i <? Z.of_nat (length a)) with true by lia.
  replace (i <? 0) with false by lia. reflexivity.
Qed.

Lemma setA_inv : forall A (a b : list A) i x, setA a i x = Ok b ->
  0 <= i < Z.of_nat (length a) /\ b = set_nth (Z.to_nat i) x a.
Proof.
  intros A a b i x H. unfold setA in H.
  destruct (i <? Z.of_nat (length a)) eqn:E1; [|discriminate].
  destruct (i <? 0) eqn:E2; [discriminate|]. inversion H; subst. split; [lia|auto].
Qed.

(** Characters and character arrays. *)
Definition is_byte (c : Z) : Prop := 0 <= c < 256.
Definition bytes (l : list Z) : Prop := Forall is_byte l.

(** The Oberon string held by a character array: the characters before the first 0X
    (all of them when there is no 0X). *)
Fixpoint str_of (a : list Z) : list Z :=
  match a with
  | [] => []
  | c :: r => if c =? 0 then [] else c :: str_of r
  end.

(** The array contains a 0X, i.e. it holds a properly terminated string. *)
Definition terminated (a : list Z) : Prop := In 0 a.

Lemma str_of_no0 : forall a, ~ In 0 (str_of a).
Proof.
  induction a as [|c r IH]; simpl; auto. destruct (c =? 0) eqn:E; simpl; [tauto|].
  intros [H|H]; [lia|auto].
Qed.

Lemma str_of_app0 : forall s r, ~ In 0 s -> str_of (s ++ 0 :: r) = s.
Proof.
  induction s as [|c s IH]; intros r H; simpl; auto.
  destruct (c =? 0) eqn:E. { exfalso. apply H. left. lia. }
  f_equal. apply IH. intro. apply H. now right.
Qed.

Lemma terminated_split : forall a, terminated a -> exists r, a = str_of a ++ 0 :: r.
Proof.
  induction a as [|c a IH]; intros H; simpl in *; [contradiction|].
  destruct (c =? 0) eqn:E.
  - exists a. simpl. f_equal. lia.
  - destruct H as [H|H]; [lia|]. destruct (IH H) as [r Hr]. exists r. simpl. f_equal. auto.
Qed.

Lemma str_of_length : forall a, (length (str_of a) <= length a)%nat.
Proof. induction a as [|c a IH]; simpl; auto. destruct (c =? 0); simpl; lia. Qed.

Lemma terminated_length : forall a, terminated a -> (length (str_of a) < length a)%nat.
Proof.
  intros a H. destruct (terminated_split a H) as [r Hr].
  rewrite Hr at 2. rewrite app_length. simpl. lia.
Qed.

Lemma bind_ok : forall A B (a : A) (k : A -> res B), bind (Ok a) k = k a.
Proof. reflexivity. Qed.

(** Unchecked C array access. *)
Definition rawget {A : Type} (a : list A) (i : Z) : res A :=
  if i <? 0 then UB else match nth_error a (Z.to_nat i) with Some x => Ok x | None => UB end.
Definition rawset {A : Type} (a : list A) (i : Z) (x : A) : res (list A) :=
  if (i <? 0) || (Z.of_nat (length a) <=? i) then UB else Ok (set_nth (Z.to_nat i) x a).

Lemma rawget_ok : forall A (a : list A) i x, 0 <= i -> nth_error a (Z.to_nat i) = Some x -> rawget a i = Ok x.
Proof. intros A a i x Hi H. unfold rawget. replace (i <? 0) with false by lia. now rewrite H. Qed.
Lemma rawset_ok : forall A (a : list A) i x, 0 <= i < Z.of_nat (length a) -> rawset a i x = Ok (set_nth (Z.to_nat i) x a).
Proof. intros A a i x Hi. unfold rawset. replace ((i <? 0) || (Z.of_nat (length a) <=? i)) with false by lia. reflexivity. Qed.

Lemma set_nth_app : forall A (p : list A) n x y q, length p = n -> set_nth n x (p ++ y :: q) = p ++ x :: q.
Proof. intros A p. induction p as [|z p IH]; intros n x y q <-; simpl; auto. f_equal. auto. Qed.

(** Split all conjunctions of the goal and solve the easy parts. *)
Ltac conjs := repeat (match goal with |- _ /\ _ => split end); auto; try lia.
