(** The scaling of Out.RealP as a whole. *)
From Coq Require Import Reals Lra Psatz.
From Verif Require Import Base OrealModel OrealSpec OrealProofs.
From Flocq Require Import Core Relative IEEE754.BinarySingleNaN.
Local Open Scope R_scope.

Lemma low : forall q, 1 / 1000 <= q -> p2 (-1022) <= q.
Proof. intros q Q. assert (H : p2 (-1022) <= p2 (-10)) by (apply bpow_le; lia). simpl (p2 (-10)) in H. lra. Qed.
Lemma high : forall q, q <= 10000000000000000000 -> q <= big.
Proof. intros q Q. assert (H : p2 64 <= big) by (apply bpow_le; lia). simpl (p2 64) in H. lra. Qed.
Lemma one_val : is_finite one = true /\ B2R one = 1.
Proof. assert (E : B2SF one = SpecFloat.S754_finite false 4503599627370496 (-52)) by (vm_compute; reflexivity). destruct (B2R_SF _ _ _ E) as [F V]. split; auto. rewrite V. simpl (p2 _). lra. Qed.
Lemma ten_val : is_finite ten = true /\ B2R ten = 10.
Proof. assert (E : B2SF ten = SpecFloat.S754_finite false 5629499534213120 (-49)) by (vm_compute; reflexivity). destruct (B2R_SF _ _ _ E) as [F V]. split; auto. rewrite V. simpl (p2 _). lra. Qed.
Lemma half_val : is_finite half = true /\ B2R half = 1 / 2.
Proof. assert (E : B2SF half = SpecFloat.S754_finite false 4503599627370496 (-53)) by (vm_compute; reflexivity). destruct (B2R_SF _ _ _ E) as [F V]. split; auto. rewrite V. simpl (p2 _). lra. Qed.
Lemma tenth_val : is_finite tenth = true /\ rel (1 / 10) (B2R tenth) u.
Proof.
  destruct one_val as [F1 V1]. destruct ten_val as [F2 V2]. destruct (div_ok one ten) as (A & _ & B); auto.
  - rewrite V2. lra.
  - rewrite V1, V2. split; [apply low; lra|apply high; lra].
  - rewrite V1, V2 in B. split; auto.
Qed.
Lemma rel_refl : forall a, 0 < a -> rel a a 0.
Proof. intros a A. split; [auto|]. lra. Qed.

Lemma step1 : forall (x : dbl) E, is_finite x = true -> (-1022 <= E <= 1023)%Z -> p2 E <= B2R x < p2 (E + 1) -> let a := (E * 77 / 256)%Z in
  exists x1, (if 0 <=? a then let* t := Ten a in Ok (ddiv x t) else let* t := Ten (- a) in Ok (dmul t x))%Z = Ok x1 /\ is_finite x1 = true /\
    rel (B2R x * p10 (- a)) (B2R x1) (1 / 35184372088832) /\ 11 / 20 <= B2R x * p10 (- a) <= 36.
Proof.
  intros x E F B X a. destruct (estimate_ok E B) as (A & U & L). fold a in A, U, L. clearbody a.
  assert (PP : p10 a * p10 (- a) = 1) by (rewrite <- bpow_plus; replace (a + - a)%Z with 0%Z by lia; reflexivity).
  pose proof (bpow_gt_0 radix10 a) as P1. pose proof (bpow_gt_0 radix10 (- a)) as P2. pose proof (bpow_gt_0 radix2 E) as P3.
  assert (Q : 11 / 20 <= B2R x * p10 (- a) <= 36).
  { split.
    - assert (11 / 20 * p10 a * p10 (- a) <= B2R x * p10 (- a)) by (apply Rmult_le_compat_r; lra). nra.
    - assert (B2R x * p10 (- a) <= 36 * p10 a * p10 (- a)) by (apply Rmult_le_compat_r; lra). nra. }
  destruct (0 <=? a)%Z eqn:E0.
  - destruct (Ten_rel a) as (t & T1 & T2 & T3); [lia|]. rewrite T1. cbn [bind].
    assert (TP : 0 < B2R t) by (destruct T3 as [_ T3]; nra).
    pose proof (rel_inv _ _ _ T3 ltac:(lra)) as R1. rewrite <- bpow_opp in R1.
    pose proof (rel_mul _ _ _ _ _ _ (rel_refl (B2R x) ltac:(lra)) R1 ltac:(lra) ltac:(lra)) as R2.
    fold (B2R x / B2R t) in R2. destruct R2 as [R2p R2].
    destruct (div_ok x t) as (D1 & _ & D2); auto.
    + lra.
    + split; [apply low; lra|apply high; lra].
    + exists (ddiv x t). split; [reflexivity|]. split; [auto|]. split; [|auto].
      pose proof (rel_trans _ _ _ _ _ (conj R2p R2) D2 ltac:(lra) ltac:(unfold u; lra)) as R3.
      apply (rel_weak _ _ _ _ R3). unfold u. lra.
  - destruct (Ten_rel (- a)) as (t & T1 & T2 & T3); [lia|]. rewrite T1. cbn [bind].
    pose proof (rel_mul _ _ _ _ _ _ T3 (rel_refl (B2R x) ltac:(lra)) ltac:(lra) ltac:(lra)) as R2. rewrite (Rmult_comm (p10 (- a))) in R2.
    destruct R2 as [R2p R2].
    destruct (mul_ok t x) as (D1 & _ & D2); auto.
    + split; [apply low; lra|apply high; lra].
    + exists (dmul t x). split; [reflexivity|]. split; [auto|]. split; [|auto].
      pose proof (rel_trans _ _ _ _ _ (conj R2p R2) D2 ltac:(lra) ltac:(unfold u; lra)) as R3.
      apply (rel_weak _ _ _ _ R3). unfold u. lra.
Qed.

Lemma step2 : forall (x1 : dbl) X a, is_finite x1 = true -> rel (X * p10 (- a)) (B2R x1) (1 / 35184372088832) -> 11 / 20 <= X * p10 (- a) <= 36 ->
  exists x2 e, (if Bleb ten x1 then (dmul tenth x1, (a + 1)%Z) else (x1, a)) = (x2, e) /\ is_finite x2 = true /\ (a <= e <= a + 1)%Z /\
    rel (X * p10 (- e)) (B2R x2) (1 / 17592186044416) /\ 1 / 2 <= B2R x2 < 10.
Proof.
  intros x1 X a F R Q. destruct ten_val as [F10 V10]. rewrite Bleb_correct by auto. rewrite V10.
  assert (R' := R). destruct R' as [Rp R'].
  destruct (Rle_bool_spec 10 (B2R x1)) as [H|H].
  - destruct tenth_val as [Ft Rt]. assert (Rt' := Rt). destruct Rt' as [_ Rt']. unfold u in Rt'.
    pose proof (rel_mul _ _ _ _ _ _ Rt R ltac:(unfold u; lra) ltac:(lra)) as R2.
    assert (B : 9 / 10 <= B2R tenth * B2R x1 <= 4).
    { assert (10 * B2R tenth <= B2R tenth * B2R x1) by (rewrite (Rmult_comm (B2R tenth)); apply Rmult_le_compat_r; lra).
      assert (B2R tenth * B2R x1 <= B2R tenth * 37) by (apply Rmult_le_compat_l; lra). lra. }
    destruct (mul_ok tenth x1) as (D1 & _ & D2); auto.
    + split; [apply low; lra|apply high; lra].
    + exists (dmul tenth x1), (a + 1)%Z. split; [reflexivity|]. split; [auto|]. split; [lia|].
      pose proof (rel_trans _ _ _ _ _ R2 D2 ltac:(unfold u; lra) ltac:(unfold u; lra)) as R3.
      assert (EQ : 1 / 10 * (X * p10 (- a)) = X * p10 (- (a + 1))).
      { replace (- a)%Z with (- (a + 1) + 1)%Z by lia. rewrite bpow_plus. simpl (p10 1). field. }
      rewrite EQ in R3. split; [apply (rel_weak _ _ _ _ R3); unfold u; lra|].
      destruct D2 as [_ D2]. unfold u in D2. lra.
  - exists x1, a. split; [reflexivity|]. split; [auto|]. split; [lia|]. split; [apply (rel_weak _ _ _ _ R); lra|]. lra.
Qed.

Lemma Entier_ok : forall x : dbl, is_finite x = true -> 0 <= B2R x < 1000000000000000000 -> exists m, Entier64 x = Ok m /\ (0 <= m)%Z /\ IZR m <= B2R x < IZR m + 1.
Proof.
  intros x F B. exists (Btrunc x). unfold Entier64. rewrite F.
  assert (E : Btrunc x = Zfloor (B2R x)). { apply eq_IZR. rewrite Btrunc_correct. rewrite round_FIX_IZR. f_equal. apply Ztrunc_floor. lra. all: try reflexivity. }
  rewrite E. pose proof (Zfloor_lb (B2R x)) as L. pose proof (Zfloor_ub (B2R x)) as U.
  assert (0 <= Zfloor (B2R x))%Z by (apply Zfloor_lub; simpl; lra).
  assert (Zfloor (B2R x) < 1000000000000000000)%Z by (apply lt_IZR; lra).
  rewrite chk_ok by (unfold in_int; lia). split; [auto|]. split; [auto|]. lra.
Qed.

Lemma step3 : forall (x2 : dbl) X e d, is_finite x2 = true -> (6 <= d <= 17)%Z -> rel (X * p10 (- e)) (B2R x2) (1 / 17592186044416) -> 1 / 2 <= B2R x2 < 10 ->
  exists x0 m, Ten (d - 1) = Ok x0 /\
    Entier64 (if Bleb (dmul ten x0) (dadd (dmul x0 x2) half) then dmul tenth (dadd (dmul x0 x2) half) else dadd (dmul x0 x2) half) = Ok m /\
    (0 <= m < 10 ^ d)%Z /\
    (X * (1 + 1 / 2199023255552) + p10 (e + 1 - d) < p10 (e + 1) -> Rabs (IZR m * p10 (e + 1 - d) - X) <= 1 / 2 * p10 (e + 1 - d) + 1 / 4398046511104 * X).
Proof.
  intros x2 X e d F D R B. destruct (Ten_exact (d - 1)) as (x0 & T1 & T2 & T3); [lia|]. exists x0.
  destruct (Ten_exact d) as (xd & U1 & U2 & U3); [lia|].
  assert (P10 : p10 d = 10 * p10 (d - 1)). { replace d with (d - 1 + 1)%Z at 1 by lia. rewrite bpow_plus. simpl (p10 1). lra. }
  set (P0 := p10 (d - 1)) in *.
  assert (PB : 100000 <= P0 <= 10000000000000000).
  { unfold P0. split; [replace 100000 with (p10 5) by (simpl; lra)|replace 10000000000000000 with (p10 16) by (simpl; lra)]; apply bpow_le; lia. }
  set (W := p10 (e + 1 - d)). assert (WP : 0 < W) by apply bpow_gt_0.
  assert (VW : X * p10 (- e) * P0 * W = X).
  { unfold P0, W. replace (X * p10 (- e) * p10 (d - 1) * p10 (e + 1 - d)) with (X * (p10 (- e) * p10 (d - 1) * p10 (e + 1 - d))) by ring.
    rewrite <- !bpow_plus. replace (- e + (d - 1) + (e + 1 - d))%Z with 0%Z by lia. simpl (p10 0). ring. }
  assert (E1W : p10 (e + 1) = W * p10 d). { unfold W. rewrite <- bpow_plus. f_equal. lia. }
  assert (R' := R). destruct R' as [Rp R'].
  destruct (mul_ok x0 x2) as (M1 & _ & M2); auto.
  { rewrite T3. assert (P0 * (1 / 2) <= P0 * B2R x2) by (apply Rmult_le_compat_l; lra). assert (P0 * B2R x2 <= P0 * 10) by (apply Rmult_le_compat_l; lra).
    split; [apply low; lra|apply high; lra]. }
  rewrite T3 in M2. set (x3 := dmul x0 x2) in *. clearbody x3.
  set (V := X * p10 (- e) * P0) in *.
  assert (RV : rel V (B2R x3) (1 / 8796093022208)).
  { pose proof (rel_mul _ _ _ _ _ _ R (rel_refl P0 ltac:(lra)) ltac:(lra) ltac:(lra)) as R2. rewrite (Rmult_comm (B2R x2)) in R2.
    pose proof (rel_trans _ _ _ _ _ R2 M2 ltac:(lra) ltac:(unfold u; lra)) as R3. apply (rel_weak _ _ _ _ R3). unfold u. lra. }
  destruct RV as [VP RV]. destruct M2 as [M2p M2]. unfold u in M2.
  assert (X3 : 40000 <= B2R x3 <= P0 * 11).
  { assert (P0 * (1 / 2) <= P0 * B2R x2) by (apply Rmult_le_compat_l; lra). assert (P0 * B2R x2 <= P0 * 10) by (apply Rmult_le_compat_l; lra). lra. }
  destruct half_val as [Fh Vh].
  destruct (add_ok x3 half) as (A1 & _ & A2); auto.
  { rewrite Vh. split; [apply low; lra|apply high; lra]. }
  rewrite Vh in A2. set (x4 := dadd x3 half) in *. clearbody x4. destruct A2 as [A2p A2]. unfold u in A2.
  destruct ten_val as [F10 V10].
  destruct (mul_ok ten x0) as (N1 & N2 & _); auto.
  { rewrite T3, V10. split; [apply low; lra|apply high; lra]. }
  assert (N3 : B2R (dmul ten x0) = p10 d).
  { rewrite N2, T3, V10. rewrite <- P10. rewrite <- U3. apply round_generic; [apply valid_rnd_N|]. apply (generic_format_B2R 53 1024 xd). }
  rewrite Bleb_correct by auto. rewrite N3.
  assert (X4 : 40000 <= B2R x4 <= p10 d * 2) by lra.
  assert (PD : IZR (10 ^ d) = p10 d) by (symmetry; apply p10_Z; lia).
  destruct (Rle_bool_spec (p10 d) (B2R x4)) as [H|H].
  - destruct tenth_val as [Ft [_ Rt]]. unfold u in Rt.
    assert (TB : 1 <= B2R tenth * B2R x4 <= p10 d * (1 / 2)).
    { assert (B2R tenth * 40000 <= B2R tenth * B2R x4) by (apply Rmult_le_compat_l; lra).
      assert (B2R tenth * B2R x4 <= B2R tenth * (p10 d * 2)) by (apply Rmult_le_compat_l; lra).
      assert (B2R tenth * (p10 d * 2) <= 1 / 9 * (p10 d * 2)) by (apply Rmult_le_compat_r; lra). lra. }
    destruct (mul_ok tenth x4) as (D1 & _ & D2); auto.
    { split; [apply low; lra|apply high; lra]. }
    destruct D2 as [_ D2]. unfold u in D2.
    destruct (Entier_ok (dmul tenth x4)) as (m & E1 & E2 & E3); auto; [lra|].
    exists m. split; [auto|]. split; [auto|]. split.
    + split; [auto|]. apply lt_IZR. rewrite PD. lra.
    + intros C. exfalso. rewrite E1W in C.
      assert (C' : V * (1 + 1 / 2199023255552) + 1 < p10 d).
      { apply Rmult_lt_reg_r with W; [auto|]. rewrite <- VW in C. lra. }
      lra.
  - destruct (Entier_ok x4) as (m & E1 & E2 & E3); auto; [lra|].
    exists m. split; [auto|]. split; [auto|]. split.
    + split; [auto|]. apply lt_IZR. rewrite PD. lra.
    + intros _. rewrite <- VW at 1 2. replace (IZR m * W - V * W) with ((IZR m - V) * W) by ring. rewrite Rabs_mult, (Rabs_pos_eq W) by lra.
      assert (G : Rabs (IZR m - V) <= 1 / 2 + 1 / 4398046511104 * V).
      { apply Rabs_le. split; lra. }
      assert (Rabs (IZR m - V) * W <= (1 / 2 + 1 / 4398046511104 * V) * W) by (apply Rmult_le_compat_r; lra). lra.
Qed.
