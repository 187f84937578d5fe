(** Proofs about the arithmetic primitives. *)
From Verif Require Import Base ArithModel.

Lemma quot_floor : forall x y, 0 <= x -> 0 < y -> Z.quot x y = x / y.
Proof. intros. apply Z.quot_div_nonneg; lia. Qed.
Lemma rem_floor : forall x y, 0 <= x -> 0 < y -> Z.rem x y = x mod y.
Proof. intros. apply Z.rem_mod_nonneg; lia. Qed.

Ltac split_ifs :=
  repeat match goal with
  | |- context [if ?b then _ else _] => destruct b eqn:?
  | H : context [if ?b then _ else _] |- _ => destruct b eqn:?
  end.

Lemma c_div_inv : forall w x y q, c_div w x y = Ok q -> y <> 0 /\ q = Z.quot x y.
Proof.
  intros w x y q H. unfold c_div in H. destruct (y =? 0) eqn:E; [discriminate|].
  apply chk_inv in H. split; [lia | tauto].
Qed.
Lemma c_rem_inv : forall w x y q, c_rem w x y = Ok q -> y <> 0 /\ q = Z.rem x y.
Proof.
  intros w x y q H. unfold c_rem in H. destruct (y =? 0) eqn:E; [discriminate|].
  destruct (in_intb w (Z.quot x y)); inversion H. split; [lia | auto].
Qed.

Ltac inv_chk :=
  repeat match goal with
  | H : bind ?m _ = Ok _ |- _ => destruct m eqn:?; cbn [bind] in H; try discriminate
  | H : chk _ _ = Ok _ |- _ => apply chk_inv in H; destruct H as [? ?]; subst
  | H : c_div _ _ _ = Ok _ |- _ => apply c_div_inv in H; destruct H as [? ?]; subst
  | H : c_rem _ _ _ = Ok _ |- _ => apply c_rem_inv in H; destruct H as [? ?]; subst
  | H : Ok _ = Ok _ |- _ => inversion H; clear H; subst
  end.

(** Whenever SYSTEM_DIV has a defined result it is the floor quotient. *)
Lemma SYSTEM_DIV_floor : forall x y q, SYSTEM_DIV x y = Ok q -> y <> 0 -> q = x / y.
Proof.
  intros x y q H Hy. unfold SYSTEM_DIV, SYSTEM_DIV_with in H.
  destruct (x =? 0) eqn:E0. { inv_chk. assert (x = 0) by lia; subst. symmetry; apply Z.div_0_l; auto. }
  destruct (x >=? 0) eqn:E1; destruct (y >=? 0) eqn:E2; inv_chk.
  - apply quot_floor; lia.
  - rewrite quot_floor by lia.
    apply Z.div_unique with (r := (x - y - 1) mod (- y) + y + 1).
    + right. pose proof (Z.mod_pos_bound (x - y - 1) (- y) ltac:(lia)). lia.
    + pose proof (Z.div_mod (x - y - 1) (- y) ltac:(lia)). lia.
  - rewrite quot_floor by lia.
    apply Z.div_unique with (r := y - 1 - ((y - x - 1) mod y)).
    + left. pose proof (Z.mod_pos_bound (y - x - 1) y ltac:(lia)). lia.
    + pose proof (Z.div_mod (y - x - 1) y ltac:(lia)). lia.
  - rewrite quot_floor by lia. apply Z.div_opp_opp. lia.
Qed.

Lemma SYSTEM_MOD_floor : forall x y q, SYSTEM_MOD x y = Ok q -> y <> 0 -> q = x mod y.
Proof.
  intros x y q H Hy. unfold SYSTEM_MOD, SYSTEM_MOD_with in H.
  destruct (x =? 0) eqn:E0. { inv_chk. assert (x = 0) by lia; subst. symmetry; apply Z.mod_0_l; auto. }
  destruct (x >=? 0) eqn:E1; destruct (y >=? 0) eqn:E2; inv_chk.
  - apply rem_floor; lia.
  - rewrite rem_floor by lia.
    apply Z.mod_unique with (q := - ((x - 1) / (- y)) - 1).
    + right. pose proof (Z.mod_pos_bound (x - 1) (- y) ltac:(lia)). lia.
    + pose proof (Z.div_mod (x - 1) (- y) ltac:(lia)). lia.
  - rewrite rem_floor by lia.
    apply Z.mod_unique with (q := - ((- x - 1) / y) - 1).
    + left. pose proof (Z.mod_pos_bound (- x - 1) y ltac:(lia)). lia.
    + pose proof (Z.div_mod (- x - 1) y ltac:(lia)). lia.
  - rewrite rem_floor by lia. rewrite Z.mod_opp_opp by lia. lia.
Qed.

(** The exact conditions under which every intermediate of SYSTEM_DIV fits 64 bits. *)
Definition div_safe (x y : Z) : Prop :=
  x = 0 \/ (0 < x /\ 0 < y) \/ (0 < x /\ y < 0 /\ x - y <= max_int 64 /\ min_int 64 < y)
  \/ (x < 0 /\ 0 < y /\ y - x <= max_int 64) \/ (x < 0 /\ y < 0 /\ min_int 64 < x /\ min_int 64 < y).

Definition mod_safe (x y : Z) : Prop :=
  x = 0 \/ (0 < x /\ 0 < y) \/ (0 < x /\ min_int 64 < y < 0)
  \/ (min_int 64 < x < 0 /\ 0 < y) \/ (min_int 64 < x < 0 /\ min_int 64 < y < 0).

Lemma quot_bound : forall a b, 0 <= a -> 0 < b -> 0 <= Z.quot a b <= a.
Proof. intros. rewrite quot_floor by lia. split; [apply Z.div_pos; lia|]. apply Z.div_le_upper_bound; nia. Qed.

Ltac do_chk := cbv iota; rewrite ?bind_ok; cbv beta; match goal with
  | |- context [chk 64 ?e] => rewrite (chk_ok 64 e) by (apply in_int64; lia); cbv iota; rewrite ?bind_ok; cbv beta
  end.

Lemma SYSTEM_DIV_defined : forall x y, in_int 64 x -> in_int 64 y -> y <> 0 ->
  (div_safe x y <-> exists q, SYSTEM_DIV x y = Ok q).
Proof.
  intros x y Hx Hy Hy0. apply in_int64 in Hx. apply in_int64 in Hy. split.
  - unfold div_safe, min_int, max_int, SYSTEM_DIV, SYSTEM_DIV_with, c_div.
    change (2 ^ (64 - 1)) with 9223372036854775808. intro H.
    destruct (x =? 0) eqn:E0. { eauto. }
    destruct (x >=? 0) eqn:E1; destruct (y >=? 0) eqn:E2.
    + replace (y =? 0) with false by lia.
      pose proof (quot_bound x y ltac:(lia) ltac:(lia)).
      do_chk. eauto.
    + repeat do_chk. replace (- y =? 0) with false by lia.
      pose proof (quot_bound (x - y - 1) (- y) ltac:(lia) ltac:(lia)).
      repeat do_chk. eauto.
    + repeat do_chk. replace (y =? 0) with false by lia.
      pose proof (quot_bound (y - x - 1) y ltac:(lia) ltac:(lia)).
      repeat do_chk. eauto.
    + repeat do_chk. replace (- y =? 0) with false by lia.
      pose proof (quot_bound (- x) (- y) ltac:(lia) ltac:(lia)).
      repeat do_chk. eauto.
  - intros [q H]. unfold SYSTEM_DIV, SYSTEM_DIV_with in H. unfold div_safe, min_int, max_int.
    change (2 ^ (64 - 1)) with 9223372036854775808.
    destruct (x =? 0) eqn:E0. { left. lia. }
    destruct (x >=? 0) eqn:E1; destruct (y >=? 0) eqn:E2; inv_chk;
    repeat match goal with H : in_int 64 _ |- _ => apply in_int64 in H end; lia.
Qed.

Lemma rem_bound : forall a b, 0 <= a -> 0 < b -> 0 <= Z.rem a b < b.
Proof. intros. apply Z.rem_bound_pos; lia. Qed.

Lemma c_rem_ok : forall a b, 0 <= a <= 9223372036854775807 -> 0 < b -> c_rem 64 a b = Ok (Z.rem a b).
Proof.
  intros a b Ha Hb. unfold c_rem. replace (b =? 0) with false by lia.
  pose proof (quot_bound a b ltac:(lia) ltac:(lia)).
  assert (in_intb 64 (Z.quot a b) = true) as -> by (apply in_intb_iff, in_int64; lia). reflexivity.
Qed.

Lemma SYSTEM_MOD_defined : forall x y, in_int 64 x -> in_int 64 y -> y <> 0 ->
  (mod_safe x y <-> exists q, SYSTEM_MOD x y = Ok q).
Proof.
  intros x y Hx Hy Hy0. apply in_int64 in Hx. apply in_int64 in Hy. split.
  - unfold mod_safe, min_int, SYSTEM_MOD, SYSTEM_MOD_with.
    change (2 ^ (64 - 1)) with 9223372036854775808. intro H.
    destruct (x =? 0) eqn:E0. { eauto. }
    destruct (x >=? 0) eqn:E1; destruct (y >=? 0) eqn:E2.
    + rewrite c_rem_ok by lia. eauto.
    + repeat do_chk. rewrite c_rem_ok by lia. cbn [bind].
      pose proof (rem_bound (x - 1) (- y) ltac:(lia) ltac:(lia)). do_chk. eauto.
    + repeat do_chk. rewrite c_rem_ok by lia. cbn [bind].
      pose proof (rem_bound (- x - 1) y ltac:(lia) ltac:(lia)). do_chk. eauto.
    + repeat do_chk. rewrite c_rem_ok by lia. cbn [bind].
      pose proof (rem_bound (- x) (- y) ltac:(lia) ltac:(lia)). do_chk. eauto.
  - intros [q H]. unfold SYSTEM_MOD, SYSTEM_MOD_with in H. unfold mod_safe, min_int.
    change (2 ^ (64 - 1)) with 9223372036854775808.
    destruct (x =? 0) eqn:E0. { left. lia. }
    destruct (x >=? 0) eqn:E1; destruct (y >=? 0) eqn:E2; inv_chk;
    repeat match goal with H : in_int 64 _ |- _ => apply in_int64 in H end; lia.
Qed.

(** The inline forms agree with the routine. *)
Lemma DIV_inline_eq : forall w x y, in_int w x -> in_int w y -> 0 < w <= 64 ->
  DIV_inline w x y = SYSTEM_DIV x y.
Proof.
  intros w x y Hx Hy Hw. unfold DIV_inline.
  destruct ((x >? 0) && (y >? 0)) eqn:E; auto.
  unfold SYSTEM_DIV, SYSTEM_DIV_with, c_div.
  replace (x =? 0) with false by lia. replace (x >=? 0) with true by lia.
  replace (y >=? 0) with true by lia. replace (y =? 0) with false by lia.
  pose proof (quot_bound x y ltac:(lia) ltac:(lia)).
  unfold in_int in *.
  assert (2 ^ (w - 1) <= 2 ^ (64 - 1)) by (apply Z.pow_le_mono_r; lia).
  rewrite !chk_ok; auto; unfold in_int; lia.
Qed.

Lemma MOD_inline_eq : forall w x y, in_int w x -> in_int w y -> 0 < w <= 64 ->
  MOD_inline w x y = SYSTEM_MOD x y.
Proof.
  intros w x y Hx Hy Hw. unfold MOD_inline.
  destruct ((x >? 0) && (y >? 0)) eqn:E; auto.
  unfold SYSTEM_MOD, SYSTEM_MOD_with, c_rem.
  replace (x =? 0) with false by lia. replace (x >=? 0) with true by lia.
  replace (y >=? 0) with true by lia. replace (y =? 0) with false by lia.
  pose proof (quot_bound x y ltac:(lia) ltac:(lia)).
  unfold in_int in *.
  assert (2 ^ (w - 1) <= 2 ^ (64 - 1)) by (apply Z.pow_le_mono_r; lia).
  replace (in_intb w (Z.quot x y)) with true by (symmetry; apply in_intb_iff; unfold in_int; lia).
  replace (in_intb 64 (Z.quot x y)) with true by (symmetry; apply in_intb_iff; unfold in_int; lia).
  reflexivity.
Qed.

(** Operands of at most 32 bits are always safe. *)
Lemma small_safe : forall x y, in_int 32 x -> in_int 32 y -> y <> 0 -> div_safe x y /\ mod_safe x y.
Proof.
  intros x y Hx Hy H0. apply in_int32 in Hx. apply in_int32 in Hy.
  unfold div_safe, mod_safe, min_int, max_int. change (2 ^ (64 - 1)) with 9223372036854775808. lia.
Qed.

Lemma in_int_mono : forall v w x, 0 < v <= w -> in_int v x -> in_int w x.
Proof.
  intros v w x H Hx. unfold in_int in *.
  assert (2 ^ (v - 1) <= 2 ^ (w - 1)) by (apply Z.pow_le_mono_r; lia). lia.
Qed.

(** ** Shifts *)

Lemma testbit_wrap_u : forall w x i, 0 <= w -> 0 <= i -> Z.testbit (wrap_u w x) i = (i <? w) && Z.testbit x i.
Proof.
  intros w x i Hw Hi. unfold wrap_u. destruct (i <? w) eqn:E; simpl.
  - apply Z.mod_pow2_bits_low. lia.
  - apply Z.mod_pow2_bits_high. lia.
Qed.

Lemma wrap_s_mod : forall w x, 0 < w -> (wrap_s w x) mod 2 ^ w = x mod 2 ^ w.
Proof.
  intros w x Hw. unfold wrap_s.
  assert (2 ^ w <> 0) by (apply Z.pow_nonzero; lia).
  rewrite Zminus_mod_idemp_l. f_equal. lia.
Qed.

Lemma testbit_wrap_s : forall w x i, 0 < w -> 0 <= i < w -> Z.testbit (wrap_s w x) i = Z.testbit x i.
Proof.
  intros w x i Hw Hi.
  rewrite <- (Z.mod_pow2_bits_low (wrap_s w x) w i) by lia.
  rewrite wrap_s_mod by lia. apply Z.mod_pow2_bits_low. lia.
Qed.

(** Two w-bit signed integers with the same low w bits are equal. *)
Lemma in_int_bits_inj : forall w x y, 0 < w -> in_int w x -> in_int w y ->
  (forall i, 0 <= i < w -> Z.testbit x i = Z.testbit y i) -> x = y.
Proof.
  intros w x y Hw Hx Hy H.
  rewrite <- (wrap_s_id w x), <- (wrap_s_id w y) by auto.
  unfold wrap_s. f_equal.
  assert (E : x mod 2 ^ w = y mod 2 ^ w).
  { apply Z.bits_inj'. intros i Hi. destruct (Z.ltb_spec i w).
    - rewrite !Z.mod_pow2_bits_low by lia. apply H. lia.
    - rewrite !Z.mod_pow2_bits_high by lia. reflexivity. }
  rewrite Zplus_mod, E, <- Zplus_mod. reflexivity.
Qed.

Lemma ASH_floor : forall x n, -63 <= n <= 63 ->
  ASH x n = Ok (if 0 <=? n then wrap_s 64 (x * 2 ^ n) else x / 2 ^ (- n)).
Proof.
  intros x n Hn. unfold ASH, ASHL, ASHR.
  destruct (n >=? 0) eqn:E.
  - replace ((0 <=? n) && (n <? 64)) with true by lia. replace (0 <=? n) with true by lia.
    rewrite Z.shiftl_mul_pow2 by lia. reflexivity.
  - replace ((0 <=? - n) && (- n <? 64)) with true by lia. replace (0 <=? n) with false by lia.
    rewrite Z.shiftr_div_pow2 by lia. reflexivity.
Qed.

Definition width (s : Z) : Prop := s = 8 \/ s = 16 \/ s = 32 \/ s = 64.
Lemma width_promoted : forall s, width s -> 0 < s <= promoted s.
Proof. intros s [|[|[|]]]; subst; unfold promoted; simpl; lia. Qed.

Lemma LSH_bits : forall x n s, width s -> - s < n < s ->
  exists r, LSH x n s = Ok r /\ in_int s r /\
    forall i, 0 <= i < s -> Z.testbit r i = (0 <=? i - n) && (i - n <? s) && Z.testbit x (i - n).
Proof.
  intros x n s Hs Hn. pose proof (width_promoted s Hs). unfold LSH, LSHL, LSHR.
  destruct (n >=? 0) eqn:E.
  - replace ((0 <=? n) && (n <? promoted s)) with true by lia.
    eexists. split; [reflexivity|]. split; [apply wrap_s_range; lia|].
    intros i Hi. rewrite testbit_wrap_s by lia. rewrite Z.shiftl_spec by lia.
    destruct (0 <=? i - n) eqn:E2; simpl.
    + rewrite testbit_wrap_u by lia. reflexivity.
    + apply Z.testbit_neg_r. lia.
  - replace ((0 <=? - n) && (- n <? promoted s)) with true by lia.
    eexists. split; [reflexivity|]. split; [apply wrap_s_range; lia|].
    intros i Hi. rewrite testbit_wrap_s by lia. rewrite Z.shiftr_spec by lia.
    rewrite testbit_wrap_u by lia. replace (i + - n) with (i - n) by lia.
    replace (0 <=? i - n) with true by lia. reflexivity.
Qed.

Lemma ROT_bits : forall x n s, width s -> - s < n < s -> n <> 0 ->
  exists r, ROT x n s = Ok r /\ in_int s r /\
    forall i, 0 <= i < s -> Z.testbit r i = Z.testbit x ((i - n) mod s).
Proof.
  intros x n s Hs Hn Hn0. pose proof (width_promoted s Hs). unfold ROT, ROTL, ROTR.
  destruct (n >=? 0) eqn:E.
  - replace ((0 <=? n) && (n <? promoted s) && (0 <=? s - n) && (s - n <? promoted s)) with true by lia.
    eexists. split; [reflexivity|]. split; [apply wrap_s_range; lia|].
    intros i Hi. rewrite testbit_wrap_s by lia. rewrite Z.lor_spec, Z.shiftl_spec, Z.shiftr_spec by lia.
    rewrite (testbit_wrap_u s x (i + (s - n))) by lia.
    destruct (Z.ltb_spec i n).
    + rewrite Z.testbit_neg_r by lia. replace (i + (s - n) <? s) with true by lia. simpl.
      f_equal. apply Z.mod_unique with (q := -1); lia.
    + replace (i + (s - n) <? s) with false by lia. simpl. rewrite orb_false_r.
      rewrite testbit_wrap_u by lia. replace (i - n <? s) with true by lia. simpl.
      f_equal. symmetry. apply Z.mod_small. lia.
  - replace ((0 <=? - n) && (- n <? promoted s) && (0 <=? s - - n) && (s - - n <? promoted s)) with true by lia.
    eexists. split; [reflexivity|]. split; [apply wrap_s_range; lia|].
    intros i Hi. rewrite testbit_wrap_s by lia. rewrite Z.lor_spec, Z.shiftl_spec, Z.shiftr_spec by lia.
    rewrite (testbit_wrap_u s x (i + - n)) by lia.
    destruct (Z.ltb_spec (i - n) s).
    + rewrite (Z.testbit_neg_r _ (i - (s - - n))) by lia. rewrite orb_false_r.
      replace (i + - n <? s) with true by lia. simpl. f_equal.
      symmetry. rewrite Z.mod_small; lia.
    + replace (i + - n <? s) with false by lia. simpl.
      rewrite testbit_wrap_u by lia. replace (i - (s - - n) <? s) with true by lia. simpl.
      f_equal. apply Z.mod_unique with (q := 1); lia.
Qed.

Lemma ROT_inverse : forall x n s, width s -> in_int s x -> - s < n < s -> n <> 0 ->
  exists r, ROT x n s = Ok r /\ ROT r (- n) s = Ok x.
Proof.
  intros x n s Hs Hx Hn Hn0. pose proof (width_promoted s Hs).
  destruct (ROT_bits x n s Hs Hn Hn0) as (r & Hr & Rr & Br).
  destruct (ROT_bits r (- n) s Hs ltac:(lia) ltac:(lia)) as (r2 & Hr2 & Rr2 & Br2).
  exists r. split; auto. rewrite Hr2. f_equal.
  apply in_int_bits_inj with (w := s); auto; try lia.
  intros i Hi. rewrite Br2 by lia.
  rewrite Br by (apply Z.mod_pos_bound; lia).
  f_equal. rewrite Zminus_mod_idemp_l. replace (i - - n - n) with i by lia. apply Z.mod_small; lia.
Qed.

(** ** Sets *)

Lemma SET_IN_spec : forall x s size, (size = 32 \/ size = 64) -> in_uint size s -> in_int 32 x ->
  SET_IN x s size = Ok ((0 <=? x) && (x <? size) && Z.testbit s x).
Proof.
  intros x s size Hsz Hs Hx. apply in_int32 in Hx. unfold SET_IN, wrap_u.
  change (2 ^ 32) with 4294967296.
  destruct (Z.ltb_spec x 0).
  - replace (x mod 4294967296 <? size) with false by lia.
    replace (0 <=? x) with false by lia. reflexivity.
  - replace (0 <=? x) with true by lia. rewrite (Z.mod_small x) by lia.
    destruct (x <? size) eqn:E; cbn [andb]; [|reflexivity].
    f_equal. rewrite Z.land_spec, Z.shiftr_spec by lia. change (Z.testbit 1 0) with true.
    rewrite andb_true_r. f_equal.
Qed.

Lemma SETOF_bits : forall x size, 0 < size -> 0 <= x < size ->
  exists e, SETOF x size = Ok e /\ in_uint size e /\ forall i, 0 <= i -> Z.testbit e i = (i =? x).
Proof.
  intros x size Hs Hx. unfold SETOF. replace ((0 <=? x) && (x <? size)) with true by lia.
  eexists. split; [reflexivity|]. split; [apply wrap_u_range; lia|].
  intros i Hi. rewrite testbit_wrap_u by lia.
  rewrite Z.shiftl_mul_pow2, Z.mul_1_l by lia. rewrite Z.pow2_bits_eqb by lia. lia.
Qed.

Lemma all_ones_bits : forall size i, 0 <= size -> 0 <= i -> Z.testbit (all_ones size) i = (i <? size).
Proof.
  intros. unfold all_ones. rewrite Z.sub_1_r, <- Z.ones_equiv. apply Z.testbit_ones_nonneg; lia.
Qed.

Lemma bits_range : forall w x, 0 <= w -> 0 <= x -> (forall i, w <= i -> Z.testbit x i = false) -> in_uint w x.
Proof.
  intros w x Hw Hx H. assert (E : x = wrap_u w x).
  { apply Z.bits_inj'. intros i Hi. rewrite testbit_wrap_u by lia.
    destruct (i <? w) eqn:E; simpl; auto. apply H. lia. }
  rewrite E. apply wrap_u_range. auto.
Qed.

Lemma SETRNG_bits : forall l h size, 0 < size -> 0 <= l < size -> 0 <= h < size ->
  exists e, SETRNG l h size = Ok e /\ in_uint size e /\
    forall i, 0 <= i -> Z.testbit e i = (l <=? i) && (i <=? h).
Proof.
  intros l h size Hs Hl Hh. unfold SETRNG.
  replace ((0 <=? l) && (l <? size) && (0 <=? size - 1 - h) && (size - 1 - h <? size)) with true by lia.
  assert (B : forall i, 0 <= i -> Z.testbit (Z.land (wrap_u size (Z.shiftl (all_ones size) l))
     (Z.shiftr (all_ones size) (size - 1 - h))) i = (l <=? i) && (i <=? h)).
  { intros i Hi. rewrite Z.land_spec, testbit_wrap_u, Z.shiftl_spec, Z.shiftr_spec by lia.
    rewrite (all_ones_bits size (i + _)) by lia.
    destruct (Z.ltb_spec (i - l) 0).
    - rewrite Z.testbit_neg_r by lia. lia.
    - rewrite all_ones_bits by lia. lia. }
  eexists. split; [reflexivity|]. split; auto.
  apply bits_range; try lia.
  - apply Z.land_nonneg. left. apply wrap_u_range. lia.
  - intros i Hi. rewrite B by lia. lia.
Qed.

Lemma uint_bits_high : forall w x i, 0 <= w -> in_uint w x -> w <= i -> Z.testbit x i = false.
Proof.
  intros w x i Hw Hx Hi. rewrite <- (wrap_u_id w x Hx). rewrite testbit_wrap_u by lia.
  replace (i <? w) with false by lia. reflexivity.
Qed.

Lemma set_compl_bits : forall size a i, 0 < size -> 0 <= i -> Z.testbit (set_compl size a) i = (i <? size) && negb (Z.testbit a i).
Proof. intros. unfold set_compl. rewrite testbit_wrap_u, Z.lnot_spec by lia. reflexivity. Qed.

Lemma set_ops_bits : forall size a b i, 0 < size -> in_uint size a -> in_uint size b -> 0 <= i ->
  Z.testbit (set_plus a b) i = Z.testbit a i || Z.testbit b i /\
  Z.testbit (set_minus size a b) i = Z.testbit a i && negb (Z.testbit b i) /\
  Z.testbit (set_times a b) i = Z.testbit a i && Z.testbit b i /\
  Z.testbit (set_slash a b) i = xorb (Z.testbit a i) (Z.testbit b i) /\
  Z.testbit (set_compl size a) i = (i <? size) && negb (Z.testbit a i).
Proof.
  intros size a b i Hs Ha Hb Hi. unfold set_plus, set_minus, set_times, set_slash.
  rewrite Z.lor_spec, !Z.land_spec, Z.lxor_spec, !set_compl_bits by lia.
  repeat split; auto.
  destruct (i <? size) eqn:E; auto. rewrite (uint_bits_high size a i) by (auto; lia). reflexivity.
Qed.

Lemma set_ops_range : forall size a b, 0 < size -> in_uint size a -> in_uint size b ->
  in_uint size (set_plus a b) /\ in_uint size (set_minus size a b) /\ in_uint size (set_times a b) /\
  in_uint size (set_slash a b) /\ in_uint size (set_compl size a).
Proof.
  intros size a b Hs Ha Hb.
  assert (Na : 0 <= a) by (unfold in_uint in Ha; lia).
  assert (Nb : 0 <= b) by (unfold in_uint in Hb; lia).
  refine (conj _ (conj _ (conj _ (conj _ _)))); [| | | |apply wrap_u_range; lia]; apply bits_range; try lia.
  - apply Z.lor_nonneg. auto.
  - intros i Hi. unfold set_plus. rewrite Z.lor_spec, (uint_bits_high size a i), (uint_bits_high size b i) by (auto; lia). auto.
  - apply Z.land_nonneg. auto.
  - intros i Hi. unfold set_minus. rewrite Z.land_spec, (uint_bits_high size a i) by (auto; lia). auto.
  - apply Z.land_nonneg. auto.
  - intros i Hi. unfold set_times. rewrite Z.land_spec, (uint_bits_high size a i) by (auto; lia). auto.
  - apply Z.lxor_nonneg. lia.
  - intros i Hi. unfold set_slash. rewrite Z.lxor_spec, (uint_bits_high size a i), (uint_bits_high size b i) by (auto; lia). auto.
Qed.

Lemma INCL_bits : forall size s x, 0 < size -> in_uint size s -> 0 <= x < size ->
  exists r, INCL size s x = Ok r /\ in_uint size r /\
    forall i, 0 <= i -> Z.testbit r i = Z.testbit s i || (i =? x).
Proof.
  intros size s x Hs Hu Hx. unfold INCL.
  destruct (SETOF_bits x size Hs Hx) as (e & -> & He & Be). cbn [bind].
  exists (Z.lor s e). split; auto. split.
  - apply (set_ops_range size s e Hs Hu He).
  - intros i Hi. rewrite Z.lor_spec, Be by lia. reflexivity.
Qed.

Lemma EXCL_bits : forall size s x, 0 < size -> in_uint size s -> 0 <= x < size ->
  exists r, EXCL size s x = Ok r /\ in_uint size r /\
    forall i, 0 <= i -> Z.testbit r i = Z.testbit s i && negb (i =? x).
Proof.
  intros size s x Hs Hu Hx. unfold EXCL.
  destruct (SETOF_bits x size Hs Hx) as (e & -> & He & Be). cbn [bind].
  exists (Z.land s (set_compl size e)). split; auto. split.
  - apply (set_ops_range size s e Hs Hu He).
  - intros i Hi. destruct (set_ops_bits size s e i Hs Hu He Hi) as (_ & H & _).
    unfold set_minus in H. rewrite H, Be by lia. reflexivity.
Qed.

(** ** Checks *)

Lemma wrap_u_64_signed : forall i, in_int 64 i -> wrap_u 64 i = if i <? 0 then i + 2 ^ 64 else i.
Proof.
  intros i Hi. apply in_int64 in Hi. unfold wrap_u. change (2 ^ 64) with 18446744073709551616.
  destruct (i <? 0) eqn:E.
  - symmetry. apply Z.mod_unique with (q := -1); lia.
  - apply Z.mod_small. lia.
Qed.

Lemma wrap_s_u : forall w x, 0 < w -> in_int w x -> wrap_s w (wrap_u w x) = x.
Proof.
  intros w x Hw Hx. rewrite <- (wrap_s_id w x Hw Hx) at 2. unfold wrap_s, wrap_u. f_equal.
  apply Zplus_mod_idemp_l.
Qed.

Lemma XF_exact : forall i ub, in_int 64 i -> 0 <= ub <= max_int 64 ->
  XF i ub = if (0 <=? i) && (i <? ub) then Ok i else Trap (-2).
Proof.
  intros i ub Hi Hub. unfold XF. unfold max_int in Hub. change (2 ^ (64 - 1)) with 9223372036854775808 in Hub.
  rewrite wrap_s_u by (auto; lia).
  rewrite (wrap_u_64_signed i Hi), (wrap_u_64_signed ub) by (apply in_int64; lia).
  replace (ub <? 0) with false by lia. apply in_int64 in Hi.
  change (2 ^ 64) with 18446744073709551616.
  destruct (Z.ltb_spec i 0); destruct (Z.ltb_spec i ub); split_ifs; try reflexivity; try lia.
Qed.

Lemma RF_exact : forall i ub, in_int 64 i -> 0 <= ub <= max_int 64 ->
  RF i ub = if (0 <=? i) && (i <? ub) then Ok i else Trap (-8).
Proof.
  intros i ub Hi Hub. unfold RF. unfold max_int in Hub. change (2 ^ (64 - 1)) with 9223372036854775808 in Hub.
  rewrite wrap_s_u by (auto; lia).
  rewrite (wrap_u_64_signed i Hi), (wrap_u_64_signed ub) by (apply in_int64; lia).
  replace (ub <? 0) with false by lia. apply in_int64 in Hi.
  change (2 ^ 64) with 18446744073709551616.
  destruct (Z.ltb_spec i 0); destruct (Z.ltb_spec i ub); split_ifs; try reflexivity; try lia.
Qed.

Lemma X_inline_nonneg : forall i ub, 0 <= i ->
  X_inline i ub = if (0 <=? i) && (i <? ub) then Ok i else Trap (-2).
Proof. intros. unfold X_inline. replace (0 <=? i) with true by lia. reflexivity. Qed.

Lemma CHRF_exact : forall x, in_int 64 x -> CHRF x = if (0 <=? x) && (x <? 256) then Ok x else Trap (-8).
Proof.
  intros x Hx. unfold CHRF. rewrite RF_exact; [| assumption | change (max_int 64) with 9223372036854775807; lia].
  destruct ((0 <=? x) && (x <? 256)) eqn:E; cbn [bind]; auto.
  rewrite wrap_u_id; auto. unfold in_uint. change (2 ^ 8) with 256. lia.
Qed.

Lemma CHR_inline_nonneg : forall x, 0 <= x -> CHR_inline x = if x <? 256 then Ok x else Trap (-8).
Proof.
  intros x Hx. unfold CHR_inline, R_inline. destruct (x <? 256) eqn:E; cbn [bind]; auto.
  rewrite wrap_u_id; auto. unfold in_uint. change (2 ^ 8) with 256. lia.
Qed.

Lemma SHORT_inline_exact : forall x to, in_int 64 x -> (to = 8 \/ to = 16 \/ to = 32) ->
  SHORT_inline x (max_int to + 1) = if in_intb to x then Ok x else Trap (-8).
Proof.
  intros x to Hx Hto. pose proof Hx as Hx'. apply in_int64 in Hx'.
  assert (Hub : max_int to + 1 = 2 ^ (to - 1)) by (unfold max_int; lia).
  rewrite Hub.
  assert (W : in_int to x -> wrap_s 32 x = x).
  { intro H. apply wrap_s_id; [lia|]. apply in_int_mono with (v := to); auto. lia. }
  unfold SHORT_inline. rewrite (wrap_u_64_signed x) by auto.
  unfold in_intb in *.
  assert (Hp : 128 <= 2 ^ (to - 1) <= 2147483648).
  { destruct Hto as [|[|]]; subst; compute; split; discriminate. }
  remember (2 ^ (to - 1)) as p eqn:Ep.
  unfold wrap_u. change (2 ^ 64) with 18446744073709551616.
  assert (Em : ((if x <? 0 then x + 18446744073709551616 else x) + p) mod 18446744073709551616
          = if x + p <? 0 then x + p + 18446744073709551616 else x + p).
  { destruct (x <? 0) eqn:E1; destruct (x + p <? 0) eqn:E2; lia. }
  rewrite Em. unfold in_int in W. rewrite <- Ep in W.
  destruct (x + p <? 0) eqn:E2.
  - replace (x + p + 18446744073709551616 <? p + p) with false by lia.
    replace ((- p <=? x) && (x <? p)) with false by lia. reflexivity.
  - destruct (x + p <? p + p) eqn:E3.
    + replace ((- p <=? x) && (x <? p)) with true by lia. rewrite W by lia. reflexivity.
    + replace ((- p <=? x) && (x <? p)) with false by lia. reflexivity.
Qed.

Lemma SHORTF_exact : forall w x to, (w = 32 \/ w = 64) -> in_int w x ->
  (to = 8 \/ to = 16 \/ to = 32) -> in_int w (x + (max_int to + 1)) ->
  SHORTF w x (max_int to + 1) = if in_intb to x then Ok x else Trap (-8).
Proof.
  intros w x to Hw Hx Hto Hs.
  assert (Hub : max_int to + 1 = 2 ^ (to - 1)) by (unfold max_int; lia).
  rewrite Hub in *. unfold SHORTF. rewrite chk_ok by auto. cbn [bind].
  assert (W : in_int to x -> wrap_s 32 x = x).
  { intro H. apply wrap_s_id; [lia|]. apply in_int_mono with (v := to); auto. lia. }
  assert (Hp : 128 <= 2 ^ (to - 1) <= 2147483648).
  { destruct Hto as [|[|]]; subst; compute; split; discriminate. }
  assert (H64 : in_int 64 (x + 2 ^ (to - 1))).
  { apply in_int_mono with (v := w); auto. lia. }
  rewrite RF_exact; auto.
  2:{ unfold max_int. change (2 ^ (64 - 1)) with 9223372036854775808. lia. }
  unfold in_intb, in_int in *. remember (2 ^ (to - 1)) as p.
  destruct ((0 <=? x + p) && (x + p <? p + p)) eqn:E; cbn [bind].
  - replace ((- p <=? x) && (x <? p)) with true by lia.
    replace (x + p - p) with x by lia. rewrite W by lia. reflexivity.
  - replace ((- p <=? x) && (x <? p)) with false by lia. reflexivity.
Qed.

(** CAP on letters: finite sweep over the byte values lifted by [forallb_forall]. *)
Definition byte_list : list Z := map Z.of_nat (seq 0 256).
Lemma in_byte_list : forall c, is_byte c -> In c byte_list.
Proof.
  intros c H. unfold byte_list, is_byte in *. apply in_map_iff. exists (Z.to_nat c).
  split; [lia|]. apply in_seq. lia.
Qed.
Lemma CAP_letter : forall c, is_byte c ->
  (97 <= c <= 122 -> CAP c = c - 32) /\ (65 <= c <= 90 -> CAP c = c).
Proof.
  assert (H : forallb (fun c => implb ((97 <=? c) && (c <=? 122)) (CAP c =? c - 32)
                             && implb ((65 <=? c) && (c <=? 90)) (CAP c =? c)) byte_list = true)
    by (vm_compute; reflexivity).
  intros c Hc. rewrite forallb_forall in H. specialize (H c (in_byte_list c Hc)).
  apply andb_prop in H. destruct H as [H1 H2]. split; intro R.
  - replace ((97 <=? c) && (c <=? 122)) with true in H1 by lia. simpl in H1. lia.
  - replace ((65 <=? c) && (c <=? 90)) with true in H2 by lia. simpl in H2. lia.
Qed.

Lemma ODD_spec : forall x, ODD x = Z.odd x.
Proof.
  intro x. unfold ODD. change 1 with (Z.ones 1). rewrite Z.land_ones by lia.
  change (2 ^ 1) with 2. rewrite Zmod_odd. destruct (Z.odd x); reflexivity.
Qed.
