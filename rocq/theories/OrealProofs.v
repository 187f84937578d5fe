(** Rounding errors of the scaling in Out.RealP. *)
From Coq Require Import Reals Lra Psatz.
From Verif Require Import Base OrealModel OrealSpec.
From Flocq Require Import Core Relative IEEE754.BinarySingleNaN.
Local Open Scope R_scope.

Notation p2 := (bpow radix2).
Definition radix10 : radix := Build_radix 10 eq_refl.
Notation p10 := (bpow radix10).
Definition val2 (x : dbl) : R := B2R x.
Definition u : R := 1 / 9007199254740992.
(** [b] is [a] with relative error at most [k]. *)
Definition rel (a b k : R) : Prop := 0 < a /\ a * (1 - k) <= b <= a * (1 + k).
Lemma rel_weak : forall a b k k', rel a b k -> k <= k' -> rel a b k'.
Proof. intros a b k k' [P H] K. split; [auto|]. nra. Qed.
Lemma rel_trans : forall a b c k k', rel a b k -> rel b c k' -> 0 <= k -> 0 <= k' <= 1 -> rel a c (k + k' + k * k').
Proof.
  intros a b c k k' [P H] [Q G] K K'. split; [auto|].
  assert (I1 : b * (1 + k') <= a * (1 + k) * (1 + k')) by (apply Rmult_le_compat_r; lra).
  assert (I2 : a * (1 - k) * (1 - k') <= b * (1 - k')) by (apply Rmult_le_compat_r; lra).
  assert (0 <= a * k * k') by (apply Rmult_le_pos; [apply Rmult_le_pos|]; lra).
  split; nra.
Qed.
Lemma rel_mul : forall a b a' b' k k', rel a b k -> rel a' b' k' -> 0 <= k <= 1 -> 0 <= k' <= 1 -> rel (a * a') (b * b') (k + k' + k * k').
Proof.
  intros a b a' b' k k' [P H] [P' H'] K K'. split; [apply Rmult_lt_0_compat; auto|].
  assert (0 <= a * (1 - k)) by (apply Rmult_le_pos; lra). assert (0 <= a' * (1 - k')) by (apply Rmult_le_pos; lra).
  assert (I1 : a * (1 - k) * (a' * (1 - k')) <= b * b') by (apply Rmult_le_compat; lra).
  assert (I2 : b * b' <= a * (1 + k) * (a' * (1 + k'))) by (apply Rmult_le_compat; lra).
  assert (0 <= a * a') by (apply Rmult_le_pos; lra). assert (0 <= k * k') by (apply Rmult_le_pos; lra).
  assert (0 <= a * a' * (k * k')) by (apply Rmult_le_pos; lra).
  split; nra.
Qed.
Lemma rel_inv : forall a b k, rel a b k -> 0 <= k <= 1 / 2 -> rel (/ a) (/ b) (2 * k).
Proof.
  intros a b k [P H] K. assert (B : 0 < b) by (assert (0 < a * (1 - k)) by (apply Rmult_lt_0_compat; lra); lra).
  split; [now apply Rinv_0_lt_compat|].
  assert (IA : a * / a = 1) by (field; lra). assert (IB : b * / b = 1) by (field; lra).
  assert (QA : 0 < / a) by now apply Rinv_0_lt_compat. assert (QB : 0 < / b) by now apply Rinv_0_lt_compat.
  split.
  - apply Rmult_le_reg_r with (b * a); [now apply Rmult_lt_0_compat|].
    replace (/ a * (1 - 2 * k) * (b * a)) with (b * (1 - 2 * k) * (a * / a)) by ring. replace (/ b * (b * a)) with (a * (b * / b)) by ring. rewrite IA, IB.
    assert (b * (1 - 2 * k) <= a * (1 + k) * (1 - 2 * k)) by (apply Rmult_le_compat_r; lra). assert (0 <= a * k) by (apply Rmult_le_pos; lra). nra.
  - apply Rmult_le_reg_r with (b * a); [now apply Rmult_lt_0_compat|].
    replace (/ a * (1 + 2 * k) * (b * a)) with (b * (1 + 2 * k) * (a * / a)) by ring. replace (/ b * (b * a)) with (a * (b * / b)) by ring. rewrite IA, IB.
    assert (a * (1 - k) * (1 + 2 * k) <= b * (1 + 2 * k)) by (apply Rmult_le_compat_r; lra). assert (0 <= a * k * (1 - 2 * k)) by (apply Rmult_le_pos; [apply Rmult_le_pos|]; lra). nra.
Qed.

Definition rnd (x : R) : R := round radix2 (FLT_exp (-1074) 53) ZnearestE x.
Lemma rnd_rel : forall x, p2 (-1022) <= x -> rel x (rnd x) u.
Proof.
  intros x H. pose proof (bpow_gt_0 radix2 (-1022)) as P.
  pose proof (relative_error_N_FLT radix2 (-1074) 53 ltac:(reflexivity) (fun z => negb (Z.even z)) x) as E.
  rewrite (Rabs_pos_eq x) in E by lra. specialize (E H). change (- (53) + 1)%Z with (-52)%Z in E.
  assert (U : / 2 * p2 (-52) = u). { unfold u. simpl. lra. }
  rewrite U in E. apply Rabs_le_inv in E. fold (rnd x) in E. unfold rel. unfold u in *. split; [lra|]. lra.
Qed.
Lemma rnd_mono : forall x y, x <= y -> rnd x <= rnd y.
Proof. intros. apply round_le; auto; [apply FLT_exp_valid; reflexivity|apply valid_rnd_N]. Qed.

Definition big : R := p2 1000.
Lemma rnd_big : forall x, p2 (-1022) <= x <= big -> Rabs (rnd x) < p2 1024.
Proof.
  intros x [L H]. destruct (rnd_rel x L) as [P Q]. unfold u in Q. rewrite Rabs_pos_eq by lra.
  assert (big * 2 <= p2 1001). { unfold big. rewrite <- (bpow_plus radix2 1000 1 : p2 1001 = _) || (change 1001%Z with (1000 + 1)%Z; rewrite bpow_plus). simpl (p2 1). lra. }
  assert (p2 1001 < p2 1024) by (apply bpow_lt; lia). lra.
Qed.
Lemma mul_ok : forall x y : dbl, is_finite x = true -> is_finite y = true -> p2 (-1022) <= B2R x * B2R y <= big ->
  is_finite (dmul x y) = true /\ B2R (dmul x y) = rnd (B2R x * B2R y) /\ rel (B2R x * B2R y) (B2R (dmul x y)) u.
Proof.
  intros x y Fx Fy H. pose proof (Bmult_correct 53 1024 _ _ mode_NE x y) as C.
  rewrite Rlt_bool_true in C by (apply rnd_big; auto). destruct C as (C1 & C2 & _). rewrite Fx, Fy in C2. split; [exact C2|].
  split; [exact C1|]. unfold dmul. rewrite C1. apply rnd_rel. lra.
Qed.
Lemma div_ok : forall x y : dbl, is_finite x = true -> B2R y <> 0 -> p2 (-1022) <= B2R x / B2R y <= big ->
  is_finite (ddiv x y) = true /\ B2R (ddiv x y) = rnd (B2R x / B2R y) /\ rel (B2R x / B2R y) (B2R (ddiv x y)) u.
Proof.
  intros x y Fx Fy H. pose proof (Bdiv_correct 53 1024 _ _ mode_NE x y Fy) as C.
  rewrite Rlt_bool_true in C by (apply rnd_big; auto). destruct C as (C1 & C2 & _). rewrite Fx in C2. split; [exact C2|].
  split; [exact C1|]. unfold ddiv. rewrite C1. apply rnd_rel. lra.
Qed.
Lemma add_ok : forall x y : dbl, is_finite x = true -> is_finite y = true -> p2 (-1022) <= B2R x + B2R y <= big ->
  is_finite (dadd x y) = true /\ B2R (dadd x y) = rnd (B2R x + B2R y) /\ rel (B2R x + B2R y) (B2R (dadd x y)) u.
Proof.
  intros x y Fx Fy H. pose proof (Bplus_correct 53 1024 _ _ mode_NE x y Fx Fy) as C.
  rewrite Rlt_bool_true in C by (apply rnd_big; auto). destruct C as (C1 & C2 & _). split; [exact C2|].
  split; [exact C1|]. unfold dadd. rewrite C1. apply rnd_rel. lra.
Qed.

(** Powers of ten, by computation of all of them. *)
Definition near47 (m e a : Z) : bool :=
  (if 0 <=? e then Z.abs (m * 2 ^ e - 10 ^ a) * 2 ^ 47 <=? 10 ^ a else Z.abs (m - 10 ^ a * 2 ^ (- e)) * 2 ^ 47 <=? 10 ^ a * 2 ^ (- e))%Z.
Definition exact (m e a : Z) : bool := (if 0 <=? e then m * 2 ^ e =? 10 ^ a else m =? 10 ^ a * 2 ^ (- e))%Z.
Definition ten_near (a : Z) : bool :=
  match Ten a with Ok t => match B2SF t with SpecFloat.S754_finite false m e => near47 (Z.pos m) e a | _ => false end | _ => false end.
Definition ten_exact (a : Z) : bool :=
  match Ten a with Ok t => match B2SF t with SpecFloat.S754_finite false m e => exact (Z.pos m) e a | _ => false end | _ => false end.
Lemma tens : forallb ten_near (map Z.of_nat (seq 0 309)) = true.
Proof. vm_compute. reflexivity. Qed.
Lemma tens_exact : forallb ten_exact (map Z.of_nat (seq 0 23)) = true.
Proof. vm_compute. reflexivity. Qed.
Lemma in_upto : forall n a, (0 <= a < Z.of_nat n)%Z -> In a (map Z.of_nat (seq 0 n)).
Proof. intros n a H. apply in_map_iff. exists (Z.to_nat a). split; [lia|]. apply in_seq. lia. Qed.
Lemma p10_Z : forall a, (0 <= a)%Z -> p10 a = IZR (10 ^ a).
Proof. intros a A. symmetry. apply (IZR_Zpower radix10). auto. Qed.
Lemma p2_Z : forall a, (0 <= a)%Z -> p2 a = IZR (2 ^ a).
Proof. intros a A. symmetry. apply (IZR_Zpower radix2). auto. Qed.
Lemma B2R_SF : forall (t : dbl) m e, B2SF t = SpecFloat.S754_finite false m e -> is_finite t = true /\ B2R t = IZR (Z.pos m) * p2 e.
Proof.
  intros t m e H. split.
  - destruct t; simpl in H; try discriminate. reflexivity.
  - rewrite <- SF2R_B2SF, H. reflexivity.
Qed.
Lemma Ten_rel : forall a, (0 <= a <= 308)%Z -> exists t, Ten a = Ok t /\ is_finite t = true /\ rel (p10 a) (B2R t) (1 / 140737488355328).
Proof.
  intros a A. pose proof tens as H. rewrite forallb_forall in H. specialize (H a (in_upto 309 a ltac:(lia))). unfold ten_near in H.
  destruct (Ten a) as [t|c| |]; try discriminate. destruct (B2SF t) as [|[]| |[] m e] eqn:E; try discriminate.
  destruct (B2R_SF t m e E) as [F V]. exists t. split; [auto|]. split; [auto|]. pose proof (bpow_gt_0 radix10 a) as P.
  split; [auto|]. rewrite V. unfold near47 in H. destruct (0 <=? e)%Z eqn:E0.
  - apply Z.leb_le in H. rewrite p2_Z by lia. rewrite p10_Z in * by lia. set (M := (Z.pos m * 2 ^ e)%Z) in *. rewrite <- mult_IZR. fold M. set (T := (10 ^ a)%Z) in *.
    apply IZR_le in H. rewrite mult_IZR in H. change (IZR (2 ^ 47)) with 140737488355328 in H. rewrite abs_IZR, minus_IZR in H.
    pose proof (Rle_abs (IZR M - IZR T)). pose proof (Rle_abs (- (IZR M - IZR T))) as G. rewrite Rabs_Ropp in G. split; lra.
  - apply Z.leb_le in H. set (D := (2 ^ (- e))%Z) in *. set (T := (10 ^ a)%Z) in *.
    assert (DP : 0 < IZR D) by (apply IZR_lt; unfold D; apply Z.pow_pos_nonneg; lia).
    assert (DE : p2 e = / IZR D). { replace e with (- - e)%Z by lia. rewrite bpow_opp. rewrite p2_Z by lia. reflexivity. }
    rewrite DE. rewrite p10_Z in P |- * by lia. fold T in P |- *. set (M := Z.pos m) in *.
    apply IZR_le in H. rewrite mult_IZR in H. change (IZR (2 ^ 47)) with 140737488355328 in H. rewrite abs_IZR, minus_IZR, mult_IZR in H.
    pose proof (Rle_abs (IZR M - IZR T * IZR D)). pose proof (Rle_abs (- (IZR M - IZR T * IZR D))) as G. rewrite Rabs_Ropp in G.
    split; (apply Rmult_le_reg_r with (IZR D); [auto|]).
    + replace (IZR M * / IZR D * IZR D) with (IZR M) by (field; lra). replace (IZR T * (1 - 1 / 140737488355328) * IZR D) with (IZR T * IZR D * (1 - 1 / 140737488355328)) by ring. lra.
    + replace (IZR M * / IZR D * IZR D) with (IZR M) by (field; lra). replace (IZR T * (1 + 1 / 140737488355328) * IZR D) with (IZR T * IZR D * (1 + 1 / 140737488355328)) by ring. lra.
Qed.
Lemma Ten_exact : forall a, (0 <= a <= 22)%Z -> exists t, Ten a = Ok t /\ is_finite t = true /\ B2R t = p10 a.
Proof.
  intros a A. pose proof tens_exact as H. rewrite forallb_forall in H. specialize (H a (in_upto 23 a ltac:(lia))). unfold ten_exact in H.
  destruct (Ten a) as [t|c| |]; try discriminate. destruct (B2SF t) as [|[]| |[] m e] eqn:E; try discriminate.
  destruct (B2R_SF t m e E) as [F V]. exists t. split; [auto|]. split; [auto|]. rewrite V. unfold exact in H. destruct (0 <=? e)%Z eqn:E0.
  - apply Z.eqb_eq in H. rewrite p2_Z, p10_Z by lia. rewrite <- mult_IZR. now rewrite H.
  - apply Z.eqb_eq in H. rewrite H, p10_Z by lia. replace e with (- - e)%Z at 2 by lia. rewrite bpow_opp, p2_Z by lia. rewrite mult_IZR.
    field. apply IZR_neq. apply Z.pow_nonzero; lia.
Qed.

(** The estimate of the decimal exponent, for all exponents. *)
Definition up (b z : Z) : Z := (b ^ Z.max 0 z)%Z.
Definition estimate (E : Z) : bool :=
  (let a := E * 77 / 256 in (-308 <=? a) && (a <=? 308) &&
   (up 2 (E + 1) * up 10 (- a) <=? 36 * up 10 a * up 2 (- (E + 1))) && (11 * up 10 a * up 2 (- E) <=? 20 * up 2 E * up 10 (- a)))%Z.
Lemma estimates : forallb (fun n => estimate (Z.of_nat n - 1022)) (seq 0 2046) = true.
Proof. vm_compute. reflexivity. Qed.
Lemma frac : forall (r : radix) z, bpow r z * IZR (up r (- z)) = IZR (up r z).
Proof.
  intros r z. unfold up. pose proof (radix_gt_0 r) as RP. destruct (Z.le_gt_cases 0 z).
  - replace (Z.max 0 (- z)) with 0%Z by lia. replace (Z.max 0 z) with z by lia. rewrite Z.pow_0_r, Rmult_1_r. symmetry. apply IZR_Zpower. auto.
  - replace (Z.max 0 (- z)) with (- z)%Z by lia. replace (Z.max 0 z) with 0%Z by lia. rewrite Z.pow_0_r.
    rewrite (IZR_Zpower r (- z)) by lia. rewrite <- bpow_plus. replace (z + - z)%Z with 0%Z by lia. reflexivity.
Qed.
Lemma up_pos : forall b z, (0 < b)%Z -> 0 < IZR (up b z).
Proof. intros b z B. apply IZR_lt. unfold up. apply Z.pow_pos_nonneg; lia. Qed.
Lemma estimate_ok : forall E, (-1022 <= E <= 1023)%Z -> let a := (E * 77 / 256)%Z in
  (-308 <= a <= 308)%Z /\ p2 (E + 1) <= 36 * p10 a /\ 11 / 20 * p10 a <= p2 E.
Proof.
  intros E B a. pose proof estimates as H. rewrite forallb_forall in H. specialize (H (Z.to_nat (E + 1022))).
  rewrite in_seq in H. specialize (H ltac:(lia)). replace (Z.of_nat (Z.to_nat (E + 1022)) - 1022)%Z with E in H by lia.
  unfold estimate in H. fold a in H. apply andb_prop in H. destruct H as [H H4]. apply andb_prop in H. destruct H as [H H3]. apply andb_prop in H. destruct H as [H1 H2].
  apply Z.leb_le in H1, H2, H3, H4. split; [lia|]. apply IZR_le in H3, H4. repeat rewrite mult_IZR in H3. repeat rewrite mult_IZR in H4.
  pose proof (frac radix2 (E + 1)) as F1. pose proof (frac radix2 E) as F2. pose proof (frac radix10 a) as F3.
  change (radix_val radix2) with 2%Z in *. change (radix_val radix10) with 10%Z in *.
  pose proof (up_pos 2 (- (E + 1)) ltac:(lia)). pose proof (up_pos 2 (- E) ltac:(lia)). pose proof (up_pos 10 (- a) ltac:(lia)).
  rewrite <- F1, <- F3 in H3. rewrite <- F2, <- F3 in H4. split.
  - apply Rmult_le_reg_r with (IZR (up 2 (- (E + 1))) * IZR (up 10 (- a))); [now apply Rmult_lt_0_compat|]. lra.
  - apply Rmult_le_reg_r with (IZR (up 2 (- E)) * IZR (up 10 (- a))); [now apply Rmult_lt_0_compat|]. lra.
Qed.
