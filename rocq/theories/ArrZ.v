(** Arrays of integers indexed by Z: pointwise reasoning for loops over ARRAY OF CHAR. *)
From Verif Require Import Base.

Definition zlen {A : Type} (a : list A) : Z := Z.of_nat (length a).
(** Element [j] of [a]; only meaningful for 0 <= j < zlen a. *)
Definition ix (a : list Z) (j : Z) : Z := nth (Z.to_nat j) a 0.

Lemma zlen_nonneg : forall A (a : list A), 0 <= zlen a.
Proof. intros. unfold zlen. lia. Qed.
Lemma zlen_set : forall A n (x : A) a, zlen (set_nth n x a) = zlen a.
Proof. intros. unfold zlen. rewrite set_nth_length. reflexivity. Qed.
Lemma zlen_app : forall A (a b : list A), zlen (a ++ b) = zlen a + zlen b.
Proof. intros. unfold zlen. rewrite app_length. lia. Qed.
Lemma zlen_cons : forall A x (a : list A), zlen (x :: a) = 1 + zlen a.
Proof. intros. unfold zlen. cbn [length]. lia. Qed.
Lemma zlen_nil : forall A, zlen (@nil A) = 0.
Proof. reflexivity. Qed.
Lemma zlen_firstn : forall A n (a : list A), 0 <= n <= zlen a -> zlen (firstn (Z.to_nat n) a) = n.
Proof. intros A n a H. unfold zlen in *. rewrite firstn_length. lia. Qed.
Lemma zlen_skipn : forall A n (a : list A), 0 <= n <= zlen a -> zlen (skipn (Z.to_nat n) a) = zlen a - n.
Proof. intros A n a H. unfold zlen in *. rewrite skipn_length. lia. Qed.

Lemma ix_set : forall a i j x, 0 <= i < zlen a -> 0 <= j ->
  ix (set_nth (Z.to_nat i) x a) j = if j =? i then x else ix a j.
Proof.
  intros a i j x Hi Hj. unfold ix, zlen in *. destruct (j =? i) eqn:E.
  - assert (j = i) by lia. subst. apply nth_error_nth. apply nth_set_nth_eq. lia.
  - destruct (nth_error a (Z.to_nat j)) as [y|] eqn:En.
    + rewrite (nth_error_nth a (Z.to_nat j) 0 En). apply nth_error_nth.
      rewrite nth_set_nth_neq by lia. auto.
    + apply nth_error_None in En. rewrite !nth_overflow; auto. rewrite set_nth_length; auto.
Qed.

Lemma getA_ix : forall a i, 0 <= i < zlen a -> getA a i = Ok (ix a i).
Proof.
  intros a i H. unfold zlen in H. apply getA_ok; [lia|]. unfold ix. apply nth_error_nth'. lia.
Qed.

Lemma getA_trap : forall A (a : list A) i, zlen a <= i -> getA a i = Trap (-2).
Proof. intros A a i H. unfold getA, zlen in *. replace (i <? Z.of_nat (length a)) with false by lia. reflexivity. Qed.
Lemma setA_trap : forall A (a : list A) i x, zlen a <= i -> setA a i x = Trap (-2).
Proof. intros A a i x H. unfold setA, zlen in *. replace (i <? Z.of_nat (length a)) with false by lia. reflexivity. Qed.
Lemma setA_ix : forall (a : list Z) i x, 0 <= i < zlen a -> setA a i x = Ok (set_nth (Z.to_nat i) x a).
Proof. intros. apply setA_ok. auto. Qed.

Lemma ix_ext : forall a b, zlen a = zlen b -> (forall j, 0 <= j < zlen a -> ix a j = ix b j) -> a = b.
Proof.
  intros a b L H. unfold zlen in *. apply nth_ext with (d := 0) (d' := 0); [lia|].
  intros n Hn. specialize (H (Z.of_nat n) ltac:(lia)). unfold ix in H. rewrite Nat2Z.id in H. auto.
Qed.

Lemma ix_app : forall a b j, 0 <= j -> ix (a ++ b) j = if j <? zlen a then ix a j else ix b (j - zlen a).
Proof.
  intros a b j Hj. unfold ix, zlen. destruct (j <? Z.of_nat (length a)) eqn:E.
  - rewrite app_nth1 by lia. reflexivity.
  - rewrite app_nth2 by lia. f_equal. lia.
Qed.

Lemma ix_firstn : forall a n j, 0 <= j < n -> ix (firstn (Z.to_nat n) a) j = ix a j.
Proof.
  intros a n j H. unfold ix. rewrite <- (firstn_skipn (Z.to_nat n) a) at 2.
  destruct (Z.to_nat j <? length (firstn (Z.to_nat n) a))%nat eqn:E.
  - rewrite app_nth1 by lia. reflexivity.
  - rewrite firstn_length in E. rewrite nth_overflow by (rewrite firstn_length; lia).
    rewrite firstn_skipn. rewrite nth_overflow; auto. lia.
Qed.

Lemma ix_skipn : forall a n j, 0 <= n -> 0 <= j -> ix (skipn (Z.to_nat n) a) j = ix a (n + j).
Proof.
  intros a n j Hn Hj. unfold ix. replace (Z.to_nat (n + j)) with (Z.to_nat n + Z.to_nat j)%nat by lia.
  revert a. induction (Z.to_nat n) as [|k IH]; intro a; simpl; auto.
  destruct a as [|x a]; [destruct (Z.to_nat j); reflexivity|]. apply IH.
Qed.

Lemma ix_cons0 : forall x a, ix (x :: a) 0 = x.
Proof. reflexivity. Qed.
Lemma ix_cons : forall x a j, 0 < j -> ix (x :: a) j = ix a (j - 1).
Proof. intros x a j H. unfold ix. replace (Z.to_nat j) with (S (Z.to_nat (j - 1))) by lia. reflexivity. Qed.

(** The string held by an array, pointwise. *)
Lemma str_of_spec : forall a, 
  zlen (str_of a) <= zlen a /\
  (forall j, 0 <= j < zlen (str_of a) -> ix (str_of a) j = ix a j /\ ix a j <> 0) /\
  (zlen (str_of a) < zlen a -> ix a (zlen (str_of a)) = 0).
Proof.
  induction a as [|c a (I1 & I2 & I3)].
  - simpl. unfold zlen; simpl. repeat split; intros; lia.
  - cbn [str_of]. destruct (c =? 0) eqn:E.
    + rewrite zlen_nil, zlen_cons. pose proof (zlen_nonneg _ a). repeat split; intros; try lia. rewrite ix_cons0. lia.
    + rewrite !zlen_cons. pose proof (zlen_nonneg _ (str_of a)). split; [lia|]. split.
      * intros j Hj. destruct (Z.eq_dec j 0) as [->|]; [rewrite !ix_cons0; split; auto; lia|].
        rewrite !ix_cons by lia. apply I2. lia.
      * intro H1. rewrite ix_cons by lia. replace (1 + zlen (str_of a) - 1) with (zlen (str_of a)) by lia. apply I3. lia.
Qed.

(** Uniqueness: an array's string is determined by its first zero. *)
Lemma str_of_unique : forall a s, zlen s <= zlen a ->
  (forall j, 0 <= j < zlen s -> ix a j = ix s j /\ ix a j <> 0) ->
  (zlen s = zlen a \/ ix a (zlen s) = 0) -> str_of a = s.
Proof.
  intros a s L H1 H2. destruct (str_of_spec a) as (I1 & I2 & I3).
  assert (E : zlen (str_of a) = zlen s).
  { pose proof (zlen_nonneg _ s). pose proof (zlen_nonneg _ (str_of a)).
    destruct (Z.lt_trichotomy (zlen (str_of a)) (zlen s)) as [Hl|[Hl|Hl]]; auto.
    - exfalso. destruct (H1 (zlen (str_of a)) ltac:(lia)) as [_ N]. apply N, I3. lia.
    - exfalso. destruct H2 as [H2|H2]; [lia|].
      destruct (I2 (zlen s) ltac:(lia)) as [_ N]. auto. }
  apply ix_ext; auto. intros j Hj. destruct (I2 j Hj) as [-> _]. apply H1. lia.
Qed.

Lemma terminated_ix : forall a, terminated a <-> zlen (str_of a) < zlen a.
Proof.
  intro a. split.
  - intro H. pose proof (terminated_length a H). unfold zlen. lia.
  - intro H. destruct (str_of_spec a) as (_ & _ & I3). specialize (I3 H). unfold terminated.
    rewrite <- I3. unfold ix. apply nth_In. unfold zlen in *. lia.
Qed.

Lemma terminated_at : forall a j, 0 <= j < zlen a -> ix a j = 0 -> terminated a.
Proof. intros a j H H0. unfold terminated. rewrite <- H0. unfold ix. apply nth_In. unfold zlen in *. lia. Qed.

(** Reading and writing the element behind a known prefix. *)
Lemma getA_at : forall (p : list Z) c q, getA (p ++ c :: q) (zlen p) = Ok c.
Proof.
  intros. rewrite getA_ix by (rewrite zlen_app, zlen_cons; pose proof (zlen_nonneg _ p); pose proof (zlen_nonneg _ q); lia).
  rewrite ix_app by apply zlen_nonneg. replace (zlen p <? zlen p) with false by lia. rewrite Z.sub_diag. reflexivity.
Qed.
Lemma setA_at : forall (p : list Z) y q x, setA (p ++ y :: q) (zlen p) x = Ok (p ++ x :: q).
Proof.
  intros. rewrite setA_ix by (rewrite zlen_app, zlen_cons; pose proof (zlen_nonneg _ p); pose proof (zlen_nonneg _ q); lia).
  f_equal. apply set_nth_app. unfold zlen. lia.
Qed.
