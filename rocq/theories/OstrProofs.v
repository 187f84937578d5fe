(** Loops of oocStrings. *)
From Verif Require Import Base ArrZ OstrModel OstrSpec.

Lemma str_facts : forall s, terminated s ->
  0 <= zlen (str_of s) < zlen s /\ ix s (zlen (str_of s)) = 0 /\ (forall j, 0 <= j < zlen (str_of s) -> ix s j <> 0 /\ ix (str_of s) j = ix s j).
Proof.
  intros s T. pose proof (str_of_spec s) as (A & B & C). apply terminated_ix in T. pose proof (zlen_nonneg _ (str_of s)).
  split; [lia|]. split; [apply C; lia|]. intros j J. destruct (B j J). auto.
Qed.
Lemma str_facts' : forall s, zlen (str_of s) <= zlen s /\ (zlen (str_of s) = zlen s \/ ix s (zlen (str_of s)) = 0) /\
  (forall j, 0 <= j < zlen (str_of s) -> ix s j <> 0 /\ ix (str_of s) j = ix s j).
Proof.
  intros s. pose proof (str_of_spec s) as (A & B & C). split; [lia|]. split; [|intros j J; destruct (B j J); auto].
  destruct (Z.eq_dec (zlen (str_of s)) (zlen s)); [auto|right; apply C; lia].
Qed.
Lemma length_loop_ok : forall f s i, 0 <= i <= zlen (str_of s) -> zlen s - i < Z.of_nat f -> length_loop f s i = Ok (zlen (str_of s)).
Proof.
  intros f. induction f as [|f IH]; intros s i H F; [pose proof (str_facts' s); lia|].
  pose proof (str_facts' s) as (A & B & C). cbn [length_loop]. destruct (i <? zlen s) eqn:E.
  - rewrite getA_ix by lia. rewrite bind_ok. destruct (ix s i =? 0) eqn:E2.
    + assert (~ i < zlen (str_of s)) by (intro; destruct (C i); lia). f_equal. lia.
    + apply IH; [|lia]. destruct B as [B|B]; [lia|]. assert (i <> zlen (str_of s)) by (intro; subst; lia). lia.
  - f_equal. lia.
Qed.
Lemma Length_ok : forall s, Length s = Ok (zlen (str_of s)).
Proof. intros s. unfold Length. apply length_loop_ok; pose proof (zlen_nonneg _ (str_of s)); unfold zlen in *; lia. Qed.

Ltac get := rewrite getA_ix by (rewrite ?zlen_set; lia); rewrite bind_ok.
Ltac put := rewrite setA_ix by (rewrite ?zlen_set; lia); rewrite ?bind_ok.
Ltac cases := repeat match goal with |- context [if ?b then _ else _] => let e := fresh "e" in destruct b eqn:e end.

Lemma assign_loop_ok : forall f source d i m, -1 <= i < m -> m <= zlen (str_of source) -> m < zlen d -> m < zlen source ->
  (m = zlen d - 1 \/ m = zlen (str_of source)) -> m - i < Z.of_nat f ->
  exists d', assign_loop f source d i = Ok d' /\ zlen d' = zlen d /\
    forall j, 0 <= j -> ix d' j = if (i <? j) && (j <? m) then ix source j else if j =? m then 0 else ix d j.
Proof.
  intros f. induction f as [|f IH]; intros source d i m I M D L O F; [lia|].
  pose proof (str_facts' source) as (A & B & C). cbn [assign_loop]. get. put. get. rewrite zlen_set.
  rewrite ix_set by lia. rewrite Z.eqb_refl.
  destruct (Z.eq_dec (i + 1) m) as [E|E].
  - replace ((ix source (i + 1) =? 0) || (i + 1 =? zlen d - 1)) with true.
    + put. eexists. split; [reflexivity|]. rewrite !zlen_set. conjs. intros j J. rewrite !ix_set by (rewrite ?zlen_set; lia).
      cases; auto; lia.
    + destruct O as [O|O]; [lia|]. destruct B as [B|B]; [lia|]. replace (i + 1) with (zlen (str_of source)) by lia. rewrite B. reflexivity.
  - destruct (C (i + 1)) as [C1 _]; [lia|]. replace ((ix source (i + 1) =? 0) || (i + 1 =? zlen d - 1)) with false by lia.
    destruct (IH source (set_nth (Z.to_nat (i + 1)) (ix source (i + 1)) d) (i + 1) m) as (d' & X & Y & Z); rewrite ?zlen_set; try lia.
    exists d'. rewrite zlen_set in Y. conjs. intros j J. rewrite Z by lia. rewrite ix_set by lia. cases; auto; try lia. f_equal. lia.
Qed.

Lemma extract_loop_ok : forall f source d pos n i, terminated source -> 0 <= pos <= zlen (str_of source) -> 0 <= i -> i <= Z.max 0 n -> n < zlen d -> 0 < zlen d ->
  i <= zlen (str_of source) - pos -> Z.max 0 n - i < Z.of_nat f ->
  let m := Z.min (Z.max 0 n) (zlen (str_of source) - pos) in
  exists d', extract_loop f source d pos n i = Ok d' /\ zlen d' = zlen d /\
    forall j, 0 <= j -> ix d' j = if (i <=? j) && (j <? m) then ix source (pos + j) else if j =? m then 0 else ix d j.
Proof.
  intros f. induction f as [|f IH]; intros source d pos n i T P I I2 N D L F m; [lia|].
  destruct (str_facts source T) as (A & B & C). cbn [extract_loop]. destruct (i <? n) eqn:E.
  - get. destruct (Z.eq_dec (pos + i) (zlen (str_of source))) as [X|X].
    + rewrite X, B. cbn [Z.eqb negb]. put. eexists. split; [reflexivity|]. rewrite !zlen_set. conjs. intros j J. rewrite !ix_set by lia. unfold m. cases; auto; lia.
    + destruct (C (pos + i)) as [C1 _]; [lia|]. replace (negb (ix source (pos + i) =? 0)) with true by lia. put.
      destruct (IH source (set_nth (Z.to_nat i) (ix source (pos + i)) d) pos n (i + 1)) as (d' & Q & Y & W); rewrite ?zlen_set; auto; try lia.
      exists d'. rewrite zlen_set in Y. conjs. intros j J. rewrite W by lia. rewrite ix_set by lia. unfold m. cases; auto; try lia. f_equal. lia.
  - put. eexists. split; [reflexivity|]. rewrite !zlen_set. conjs. intros j J. rewrite !ix_set by lia. unfold m. cases; auto; lia.
Qed.

Lemma delete_loop_ok : forall f s n last i, 0 <= n -> 0 <= i -> last + n < zlen s -> Z.max 0 (last + 1 - i) < Z.of_nat f ->
  exists s', delete_loop f s n last i = Ok s' /\ zlen s' = zlen s /\
    forall j, 0 <= j -> ix s' j = if (i <=? j) && (j <=? last) then ix s (j + n) else ix s j.
Proof.
  intros f. induction f as [|f IH]; intros s n last i N I L F; [|cbn [delete_loop]; destruct (i <=? last) eqn:E].
  - lia.
  - get. put.
    destruct (IH (set_nth (Z.to_nat i) (ix s (i + n)) s) n last (i + 1)) as (d' & Q & Y & W); rewrite ?zlen_set; auto; try lia.
    exists d'. rewrite zlen_set in Y. conjs. intros j J. rewrite W by lia. rewrite !ix_set by lia. cases; auto; try lia. f_equal. lia.
  - exists s. conjs. intros j J. cases; auto; lia.
Qed.

Lemma move_loop_ok : forall f d n first i, 0 <= n -> 0 <= first -> i + n < zlen d -> Z.max 0 (i + 1 - first) < Z.of_nat f ->
  exists d', move_loop f d n first i = Ok d' /\ zlen d' = zlen d /\
    forall j, 0 <= j -> ix d' j = if (first + n <=? j) && (j <=? i + n) then ix d (j - n) else ix d j.
Proof.
  intros f. induction f as [|f IH]; intros d n first i N I L F; [|cbn [move_loop]; destruct (first <=? i) eqn:E].
  - lia.
  - get. put.
    destruct (IH (set_nth (Z.to_nat (i + n)) (ix d i) d) n first (i - 1)) as (d' & Q & Y & W); rewrite ?zlen_set; auto; try lia.
    exists d'. rewrite zlen_set in Y. conjs. intros j J. rewrite W by lia. cases; rewrite ?ix_set by lia; cases; auto; try lia. f_equal. lia.
  - exists d. conjs. intros j J. cases; auto; lia.
Qed.
Lemma copy_loop_ok : forall f source d pos last i, 0 <= pos -> 0 <= i -> last < zlen source -> pos + last < zlen d -> Z.max 0 (last + 1 - i) < Z.of_nat f ->
  exists d', copy_loop f source d pos last i = Ok d' /\ zlen d' = zlen d /\
    forall j, 0 <= j -> ix d' j = if (pos + i <=? j) && (j <=? pos + last) then ix source (j - pos) else ix d j.
Proof.
  intros f. induction f as [|f IH]; intros source d pos last i P I L D F; [|cbn [copy_loop]; destruct (i <=? last) eqn:E].
  - lia.
  - get. put.
    destruct (IH source (set_nth (Z.to_nat (pos + i)) (ix source i) d) pos last (i + 1)) as (d' & Q & Y & W); rewrite ?zlen_set; auto; try lia.
    exists d'. rewrite zlen_set in Y. conjs. intros j J. rewrite W by lia. rewrite !ix_set by lia. cases; auto; try lia. f_equal. lia.
  - exists d. conjs. intros j J. cases; auto; lia.
Qed.
Lemma replace_loop_ok : forall f source d pos dl i, terminated source -> 0 <= pos <= dl -> dl <= zlen d -> 0 <= i <= zlen (str_of source) -> dl - pos < Z.of_nat f ->
  exists d', replace_loop f source d pos dl i = Ok d' /\ zlen d' = zlen d /\
    forall j, 0 <= j -> ix d' j = if (pos <=? j) && (j <? dl) && (j - pos + i <? zlen (str_of source)) then ix source (j - pos + i) else ix d j.
Proof.
  intros f. induction f as [|f IH]; intros source d pos dl i T P D I F; [lia|]. destruct (str_facts source T) as (A & B & C).
  cbn [replace_loop]. destruct (pos =? dl) eqn:E; cbn [negb].
  - exists d. conjs. intros j J. cases; auto; lia.
  - get. destruct (Z.eq_dec i (zlen (str_of source))) as [X|X].
    + rewrite X, B. cbn [Z.eqb negb]. exists d. conjs. intros j J. cases; auto; lia.
    + destruct (C i) as [C1 _]; [lia|]. replace (negb (ix source i =? 0)) with true by lia. put.
      destruct (IH source (set_nth (Z.to_nat pos) (ix source i) d) (pos + 1) dl (i + 1)) as (d' & Q & Y & W); rewrite ?zlen_set; auto; try lia.
      exists d'. rewrite zlen_set in Y. conjs. intros j J. rewrite W by lia. rewrite !ix_set by lia. cases; auto; try lia; f_equal; lia.
Qed.
Lemma append_loop_ok : forall f source d dl i, terminated source -> 0 <= dl < zlen d -> 0 <= i <= zlen (str_of source) -> zlen d - dl <= Z.of_nat f ->
  let m := Z.min (zlen d - 1) (dl + zlen (str_of source) - i) in
  exists d', append_loop f source d dl i = Ok d' /\ zlen d' = zlen d /\
    forall j, 0 <= j -> ix d' j = if (dl <=? j) && (j <? m) then ix source (j - dl + i) else if j =? m then 0 else ix d j.
Proof.
  intros f. induction f as [|f IH]; intros source d dl i T D I F m; [lia|]. destruct (str_facts source T) as (A & B & C).
  cbn [append_loop]. destruct (dl <? zlen d - 1) eqn:E.
  - get. destruct (Z.eq_dec i (zlen (str_of source))) as [X|X].
    + rewrite X, B. cbn [Z.eqb negb]. put. eexists. split; [reflexivity|]. rewrite zlen_set. conjs. intros j J. rewrite ix_set by lia. unfold m. cases; auto; lia.
    + destruct (C i) as [C1 _]; [lia|]. replace (negb (ix source i =? 0)) with true by lia. put.
      destruct (IH source (set_nth (Z.to_nat dl) (ix source i) d) (dl + 1) (i + 1)) as (d' & Q & Y & W); rewrite ?zlen_set; auto; try lia.
      exists d'. rewrite zlen_set in *. conjs. intros j J. rewrite W by lia. rewrite !ix_set by lia. unfold m. cases; auto; try lia; f_equal; lia.
  - put. eexists. split; [reflexivity|]. rewrite zlen_set. conjs. intros j J. rewrite ix_set by lia. unfold m. cases; auto; lia.
Qed.
Lemma concat_loop_ok : forall f source d j i, terminated source -> 0 <= j <= zlen (str_of source) -> 0 <= i < zlen d -> zlen (str_of source) - j < Z.of_nat f ->
  let m := Z.min (zlen d - 1) (i + zlen (str_of source) - j) in
  exists d', concat_loop f source d j i = Ok (d', m) /\ zlen d' = zlen d /\
    forall k, 0 <= k -> ix d' k = if (i <=? k) && (k <? m) then ix source (k - i + j) else ix d k.
Proof.
  intros f. induction f as [|f IH]; intros source d j i T J I F m; [lia|]. destruct (str_facts source T) as (A & B & C).
  cbn [concat_loop]. get. destruct (Z.eq_dec j (zlen (str_of source))) as [X|X].
  - rewrite X, B. cbn [Z.eqb negb andb]. exists d. split; [do 2 f_equal; unfold m; lia|]. conjs. intros k K. unfold m. cases; auto; lia.
  - destruct (C j) as [C1 _]; [lia|]. replace (negb (ix source j =? 0)) with true by lia. cbn [andb]. destruct (i <? zlen d - 1) eqn:E.
    + put. destruct (IH source (set_nth (Z.to_nat i) (ix source j) d) (j + 1) (i + 1)) as (d' & Q & Y & W); rewrite ?zlen_set; auto; try lia.
      exists d'. rewrite zlen_set in *. replace (i + 1 + zlen (str_of source) - (j + 1)) with (i + zlen (str_of source) - j) in * by lia. conjs.
      intros k K. rewrite W by lia. rewrite !ix_set by lia. unfold m. cases; auto; try lia; f_equal; lia.
    + exists d. split; [do 2 f_equal; unfold m; lia|]. conjs. intros k K. unfold m. cases; auto; lia.
Qed.
Lemma common_loop_ok : forall f a b i, terminated a -> terminated b -> 0 <= i <= zlen (str_of a) -> i <= zlen (str_of b) ->
  (forall j, 0 <= j < i -> ix a j = ix b j) -> zlen (str_of a) - i < Z.of_nat f ->
  exists k, common_loop f a b i = Ok k /\ i <= k <= zlen (str_of a) /\ k <= zlen (str_of b) /\ (forall j, 0 <= j < k -> ix a j = ix b j) /\
    (ix a k = 0 \/ ix a k <> ix b k).
Proof.
  intros f. induction f as [|f IH]; intros a b i Ta Tb I J E F; [lia|].
  destruct (str_facts a Ta) as (A & B & C). destruct (str_facts b Tb) as (A' & B' & C'). cbn [common_loop]. get.
  destruct (ix a i =? 0) eqn:E0; cbn [negb].
  - exists i. conjs.
  - assert (i < zlen (str_of a)) by (assert (i <> zlen (str_of a)) by (intro; subst; lia); lia). get.
    destruct (ix a i =? ix b i) eqn:E1.
    + assert (i < zlen (str_of b)) by (assert (i <> zlen (str_of b)) by (intro; subst; lia); lia).
      destruct (IH a b (i + 1)) as (k & Q & K1 & K2 & K3 & K4); auto; try lia.
      * intros j Hj. destruct (Z.eq_dec j i); [subst; lia|apply E; lia].
      * exists k. conjs.
    + exists i. conjs.
Qed.
Lemma capitalize_loop_ok : forall f s i n, 0 <= i <= n -> n < zlen s -> ix s n = 0 -> (forall j, i <= j < n -> ix s j <> 0) -> n - i < Z.of_nat f ->
  exists s', capitalize_loop f s i = Ok s' /\ zlen s' = zlen s /\
    forall j, 0 <= j -> ix s' j = if (i <=? j) && (j <? n) then Z.land (ix s j) 95 else ix s j.
Proof.
  intros f. induction f as [|f IH]; intros s i n I N E C F; [lia|]. cbn [capitalize_loop]. get.
  destruct (Z.eq_dec i n) as [X|X].
  - subst i. rewrite E. cbn [Z.eqb negb]. exists s. conjs. intros j J. cases; auto; lia.
  - assert (ix s i <> 0) by (apply C; lia). replace (negb (ix s i =? 0)) with true by lia. put.
    destruct (IH (set_nth (Z.to_nat i) (CAP (ix s i)) s) (i + 1) n) as (d' & Q & Y & W); rewrite ?zlen_set; auto; try lia.
    + rewrite ix_set by lia. cases; auto; lia.
    + intros j J. rewrite ix_set by lia. cases; try lia; apply C; lia.
    + exists d'. rewrite zlen_set in *. conjs. intros j J. rewrite W by lia. rewrite !ix_set by lia. unfold CAP. cases; auto; try lia; do 2 f_equal; lia.
Qed.

(** Searching: [x] occurs at [i] in terms of elements. *)
Definition at_ (x s : list Z) (i : Z) : Prop := 0 <= i /\ i + zlen (str_of x) <= zlen (str_of s) /\ forall k, 0 <= k < zlen (str_of x) -> ix s (i + k) = ix x k.
Lemma next_loop_ok : forall f x s a k p, terminated x -> terminated s -> 0 <= k <= zlen (str_of x) -> 0 <= a - k -> a <= zlen (str_of s) ->
  (forall j, 0 <= j < k -> ix s (a - k + j) = ix x j) ->
  (zlen (str_of s) - (a - k)) * (1 + zlen (str_of x)) + (zlen (str_of x) - k) < Z.of_nat f ->
  (exists i, next_loop f x s a k p = Ok (true, i) /\ a - k <= i /\ at_ x s i /\ forall j, a - k <= j < i -> ~ at_ x s j) \/
  (next_loop f x s a k p = Ok (false, p) /\ forall j, a - k <= j -> ~ at_ x s j).
Proof.
  intros f. induction f as [|f IH]; intros x s a k p Tx Ts K A L E F; [nia|].
  destruct (str_facts x Tx) as (X1 & X2 & X3). destruct (str_facts s Ts) as (S1 & S2 & S3). cbn [next_loop]. get.
  destruct (ix x k =? 0) eqn:E0.
  - assert (k = zlen (str_of x)) by (assert (~ k < zlen (str_of x)) by (intro; destruct (X3 k); lia); lia). subst k.
    left. exists (a - zlen (str_of x)). conjs. split; [lia|]. split; [lia|]. auto.
  - assert (k < zlen (str_of x)) by (assert (k <> zlen (str_of x)) by (intro; subst; lia); lia). get.
    destruct (ix s a =? 0) eqn:E1.
    + assert (a = zlen (str_of s)) by (assert (~ a < zlen (str_of s)) by (intro; destruct (S3 a); lia); lia). subst a.
      right. conjs. intros j J (H1 & H2 & H3). lia.
    + assert (a < zlen (str_of s)) by (assert (a <> zlen (str_of s)) by (intro; subst; lia); lia).
      destruct (ix s a =? ix x k) eqn:E2.
      * replace (a - k) with (a + 1 - (k + 1)) in * by lia. apply IH; auto; try lia.
        intros j J. destruct (Z.eq_dec j k) as [->|]; [replace (a + 1 - (k + 1) + k) with a by lia; lia|apply E; lia].
      * assert (N : ~ at_ x s (a - k)). { intros (H1 & H2 & H3). specialize (H3 k ltac:(lia)). replace (a - k + k) with a in H3 by lia. lia. }
        destruct (IH x s (a - k + 1) 0 p) as [(i & I1 & I2 & I3 & I4)|(I1 & I2)]; auto; try lia; try (intros; lia).
        -- left. exists i. conjs. intros j J. destruct (Z.eq_dec j (a - k)) as [->|]; auto. apply I4. lia.
        -- right. conjs. intros j J. destruct (Z.eq_dec j (a - k)) as [->|]; auto. apply I2. lia.
Qed.
Lemma prev_loop_ok : forall f x s a k p, terminated x -> terminated s -> 0 <= k <= zlen (str_of x) -> 0 <= a - k -> a - k + zlen (str_of x) <= zlen (str_of s) ->
  (forall j, 0 <= j < k -> ix s (a - k + j) = ix x j) ->
  (a - k) * (1 + zlen (str_of x)) + (zlen (str_of x) - k) < Z.of_nat f ->
  (exists i, prev_loop f x s a k p = Ok (true, i) /\ i <= a - k /\ at_ x s i /\ forall j, i < j <= a - k -> ~ at_ x s j) \/
  (prev_loop f x s a k p = Ok (false, p) /\ forall j, j <= a - k -> ~ at_ x s j).
Proof.
  intros f. induction f as [|f IH]; intros x s a k p Tx Ts K A L E F; [nia|].
  destruct (str_facts x Tx) as (X1 & X2 & X3). destruct (str_facts s Ts) as (S1 & S2 & S3). cbn [prev_loop]. get.
  destruct (ix x k =? 0) eqn:E0.
  - assert (k = zlen (str_of x)) by (assert (~ k < zlen (str_of x)) by (intro; destruct (X3 k); lia); lia). subst k.
    left. exists (a - zlen (str_of x)). conjs. split; [lia|]. split; [lia|]. auto.
  - assert (k < zlen (str_of x)) by (assert (k <> zlen (str_of x)) by (intro; subst; lia); lia). get.
    destruct (ix s a =? ix x k) eqn:E2; cbn [negb].
    + replace (a - k) with (a + 1 - (k + 1)) in * by lia. apply IH; auto; try lia.
      intros j J. destruct (Z.eq_dec j k) as [->|]; [replace (a + 1 - (k + 1) + k) with a by lia; lia|apply E; lia].
    + assert (N : ~ at_ x s (a - k)). { intros (H1 & H2 & H3). specialize (H3 k ltac:(lia)). replace (a - k + k) with a in H3 by lia. lia. }
      destruct (a >? k) eqn:E3.
      * destruct (IH x s (a - k - 1) 0 p) as [(i & I1 & I2 & I3 & I4)|(I1 & I2)]; auto; try lia; try (intros; lia).
        -- left. exists i. conjs. intros j J. destruct (Z.eq_dec j (a - k)) as [->|]; auto. apply I4. lia.
        -- right. conjs. intros j J. destruct (Z.eq_dec j (a - k)) as [->|]; auto. apply I2. lia.
      * right. conjs. intros j J. destruct (Z.eq_dec j (a - k)) as [->|]; auto. intros (H1 & _). lia.
Qed.
