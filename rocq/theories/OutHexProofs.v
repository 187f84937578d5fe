From Verif Require Import Base ArrZ ArithModel ArithSpec ArithProofs StringsModel StringsProofs OutModel OutSpec OutProofs.

(** * Rotation as arithmetic *)
Definition rotv (u k : Z) : Z := (u * 2 ^ k) mod 2 ^ 64 + u / 2 ^ (64 - k).
Lemma lor_disjoint : forall a b k, 0 <= k -> 0 <= b < 2 ^ k -> Z.lor (a * 2 ^ k) b = a * 2 ^ k + b.
Proof.
  intros a b k Hk Hb. assert (L : Z.land (a * 2 ^ k) b = 0).
  { apply Z.bits_inj'. intros n Hn. rewrite Z.land_spec, Z.bits_0. rewrite Z.mul_pow2_bits by lia.
    destruct (Z_lt_le_dec n k) as [L|L].
    - rewrite Z.testbit_neg_r by lia. reflexivity.
    - replace (Z.testbit b n) with false; [apply andb_false_r|]. symmetry. apply (uint_bits_high k); try lia. unfold in_uint. lia. }
  rewrite <- Z.lxor_lor by auto. symmetry. apply Z.add_nocarry_lxor. auto.
Qed.
Lemma wrap_u64 : forall x, wrap_u 64 x = x mod 2 ^ 64.
Proof. reflexivity. Qed.
Lemma ROT_rotv : forall x k, 0 < k < 64 -> exists y, ROT x k 64 = Ok y /\ in_int 64 y /\ wrap_u 64 y = rotv (wrap_u 64 x) k.
Proof.
  intros x k Hk. unfold ROT, ROTL. replace (k >=? 0) with true by lia. change (promoted 64) with 64.
  replace (0 <=? k) with true by lia. replace (k <? 64) with true by lia. replace (0 <=? 64 - k) with true by lia. replace (64 - k <? 64) with true by lia.
  cbn [andb]. eexists. split; [reflexivity|]. split; [apply wrap_s_range; lia|].
  rewrite wrap_u64, wrap_s_mod by lia. pose proof (wrap_u_range 64 x ltac:(lia)) as R. unfold in_uint in R. set (u := wrap_u 64 x) in *. clearbody u.
  rewrite Z.shiftl_mul_pow2, Z.shiftr_div_pow2 by lia.
  assert (D : 0 <= u / 2 ^ (64 - k) < 2 ^ k).
  { split; [apply Z.div_pos; [lia|apply Z.pow_pos_nonneg; lia]|]. apply Z.div_lt_upper_bound; [apply Z.pow_pos_nonneg; lia|].
    rewrite <- Z.pow_add_r by lia. replace (64 - k + k) with 64 by lia. lia. }
  rewrite lor_disjoint by lia. unfold rotv.
  assert (M : (u * 2 ^ k) mod 2 ^ 64 + 2 ^ k <= 2 ^ 64).
  { replace (2 ^ 64) with (2 ^ (64 - k) * 2 ^ k) by (rewrite <- Z.pow_add_r by lia; f_equal; lia).
    rewrite Z.mul_mod_distr_r by (apply Z.pow_nonzero; lia). pose proof (Z.mod_pos_bound u (2 ^ (64 - k)) ltac:(apply Z.pow_pos_nonneg; lia)).
    assert (0 < 2 ^ k) by (apply Z.pow_pos_nonneg; lia). nia. }
  rewrite Z.add_mod by lia. rewrite (Z.mod_small (u / _) (2 ^ 64)) by (split; [lia|]; apply Z.lt_le_trans with (2 ^ k); [lia|apply Z.pow_le_mono_r; lia]).
  apply Z.mod_small. pose proof (Z.mod_pos_bound (u * 2 ^ k) (2 ^ 64) ltac:(lia)). lia.
Qed.

(** A word seen as m leading hexadecimal digits (value a) and the rest. *)
Lemma rot4_step : forall m a b, 0 < m <= 16 -> 0 <= a < 16 ^ m -> 0 <= b < 16 ^ (16 - m) ->
  rotv (a * 16 ^ (16 - m) + b) 4 = (a mod 16 ^ (m - 1)) * 16 ^ (16 - (m - 1)) + (b * 16 + a / 16 ^ (m - 1)) /\
  0 <= a / 16 ^ (m - 1) < 16 /\ 0 <= b * 16 + a / 16 ^ (m - 1) < 16 ^ (16 - (m - 1)).
Proof.
  intros m a b Hm Ha Hb. unfold rotv. set (P := 16 ^ (m - 1)). set (Q := 16 ^ (16 - m)) in *.
  assert (HP : 0 < P) by (apply Z.pow_pos_nonneg; lia). assert (HQ : 0 < Q) by (apply Z.pow_pos_nonneg; lia).
  assert (EP : 16 ^ m = P * 16) by (unfold P; rewrite Z.mul_comm, <- Z.pow_succ_r by lia; f_equal; lia).
  assert (EQ : 16 ^ (16 - (m - 1)) = Q * 16) by (unfold Q; rewrite Z.mul_comm, <- Z.pow_succ_r by lia; f_equal; lia).
  assert (E60 : 2 ^ (64 - 4) = P * Q). { unfold P, Q. rewrite <- Z.pow_add_r by lia. replace (m - 1 + (16 - m)) with 15 by lia. reflexivity. }
  assert (E64 : 2 ^ 64 = P * Q * 16). { rewrite <- E60. reflexivity. }
  rewrite EQ, E60, E64. change (2 ^ 4) with 16. clearbody P Q. rewrite EP in Ha. clear EP EQ E60 E64.
  set (t := a / P). set (r := a mod P). assert (Ea : a = P * t + r) by (unfold t, r; apply Z.div_mod; lia).
  assert (Hr : 0 <= r < P) by (unfold r; apply Z.mod_pos_bound; lia). clearbody t r.
  assert (Ht : 0 <= t < 16) by nia. split; [|split; [lia|nia]].
  assert (Hx : a * Q + b = (P * Q) * t + (r * Q + b)) by (rewrite Ea; ring).
  assert (Hs : 0 <= r * Q + b < P * Q) by nia. rewrite Hx.
  rewrite (Z.mul_comm (P * Q) t), Z.div_add_l by nia. rewrite (Z.div_small (r * Q + b)) by lia.
  rewrite Z.mul_mod_distr_r by lia. rewrite (Z.add_comm (t * (P * Q))), Z.mod_add, Z.mod_small by lia. ring.
Qed.
Lemma rot_start : forall w u, 0 < w < 16 -> 0 <= u < 2 ^ 64 ->
  rotv u (4 * (16 - w)) = (u mod 16 ^ w) * 16 ^ (16 - w) + u / 16 ^ w /\ 0 <= u / 16 ^ w < 16 ^ (16 - w).
Proof.
  intros w u Hw Hu. unfold rotv. replace (64 - 4 * (16 - w)) with (4 * w) by lia.
  replace (2 ^ (4 * (16 - w))) with (16 ^ (16 - w)) by (rewrite Z.pow_mul_r by lia; reflexivity).
  replace (2 ^ (4 * w)) with (16 ^ w) by (rewrite Z.pow_mul_r by lia; reflexivity).
  set (P := 16 ^ w). set (Q := 16 ^ (16 - w)).
  assert (HP : 0 < P) by (apply Z.pow_pos_nonneg; lia). assert (HQ : 0 < Q) by (apply Z.pow_pos_nonneg; lia).
  assert (E64 : 2 ^ 64 = P * Q). { unfold P, Q. rewrite <- Z.pow_add_r by lia. replace (w + (16 - w)) with 16 by lia. reflexivity. }
  rewrite E64 in *. rewrite Z.mul_mod_distr_r by lia. split; [reflexivity|]. split; [apply Z.div_pos; lia|]. apply Z.div_lt_upper_bound; lia.
Qed.

Definition hexchar (d : Z) : Z := if d <? 10 then d + 48 else d - 10 + 65.
Lemma digval_hex : forall d, 0 <= d < 16 -> digval (hexchar d) = Some d.
Proof.
  intros d H. unfold hexchar, digval. destruct (d <? 10) eqn:E.
  - replace (48 <=? d + 48) with true by lia. replace (d + 48 <=? 57) with true by lia. cbn [andb]. f_equal. lia.
  - replace (d - 10 + 65 <=? 57) with false by lia. rewrite andb_false_r. replace (65 <=? d - 10 + 65) with true by lia.
    replace (d - 10 + 65 <=? 70) with true by lia. cbn [andb]. f_equal. lia.
Qed.

Definition good_rot (rot : Z -> Z -> res Z) : Prop := forall x k, 0 < k < 64 -> rot x k = ROT x k 64.
Lemma good_ROT : good_rot (fun x n => ROT x n 64).
Proof. intros x k H. reflexivity. Qed.
Lemma good_ROT_wrap : good_rot ROT_wrap.
Proof. intros x k H. unfold ROT_wrap. replace (k =? 0) with false by lia. reflexivity. Qed.

Lemma land15 : forall x, Z.land x 15 = wrap_u 64 x mod 16.
Proof.
  intro x. change 15 with (Z.ones 4). rewrite Z.land_ones by lia. change (2 ^ 4) with 16. rewrite wrap_u64. change (2 ^ 64) with (16 * 1152921504606846976).
  rewrite Z.rem_mul_r by lia. rewrite Z.mul_comm, Z.mod_add by lia. rewrite Z.mod_mod by lia. reflexivity.
Qed.
Lemma hex_loop_spec : forall rot, good_rot rot -> forall m fuel x a b s, OInv s -> wrap_u 64 x = a * 16 ^ (16 - Z.of_nat m) + b -> (m <= 16)%nat ->
  0 <= a < 16 ^ Z.of_nat m -> 0 <= b < 16 ^ (16 - Z.of_nat m) -> (m < fuel)%nat ->
  exists s' ds, hex_loop fuel full rot x (Z.of_nat m) s = Ok s' /\ OInv s' /\ otext s' = otext s ++ ds /\ zlen ds = Z.of_nat m /\ numeral 16 ds a.
Proof.
  intros rot GR. induction m as [|m IH]; intros fuel x a b s I Hx Hm Ha Hb F; (destruct fuel as [|fuel]; [lia|]); cbn [hex_loop].
  - change (Z.of_nat 0 >? 0) with false. cbv iota. exists s, []. rewrite app_nil_r. change (16 ^ Z.of_nat 0) with 1 in Ha. replace a with 0 by lia. repeat split; try apply I; constructor.
  - replace (Z.of_nat (S m) >? 0) with true by lia. rewrite GR by lia. destruct (ROT_rotv x 4 ltac:(lia)) as (y & A & B & C). rewrite A, bind_ok.
    destruct (rot4_step (Z.of_nat (S m)) a b) as (R1 & R2 & R3); try lia. rewrite <- Hx, <- C in R1. replace (Z.of_nat (S m) - 1) with (Z.of_nat m) in * by lia.
    set (t := a / 16 ^ Z.of_nat m) in *.
    assert (T : Z.land y 15 = t).
    { rewrite land15, R1. replace (16 ^ (16 - Z.of_nat m)) with (16 * 16 ^ (16 - Z.of_nat m - 1)) by (rewrite <- Z.pow_succ_r by lia; f_equal; lia).
      replace (a mod 16 ^ Z.of_nat m * (16 * 16 ^ (16 - Z.of_nat m - 1)) + (b * 16 + t)) with (t + (a mod 16 ^ Z.of_nat m * 16 ^ (16 - Z.of_nat m - 1) + b) * 16) by ring.
      rewrite Z.mod_add by lia. apply Z.mod_small. lia. }
    rewrite T. assert (CH : (if t <? 10 then CHR_inline (t + 48) else CHR_inline (t - 10 + 65)) = Ok (hexchar t)).
    { unfold hexchar. destruct (t <? 10) eqn:E; rewrite CHR_inline_nonneg by lia; [replace (t + 48 <? 256) with true by lia|replace (t - 10 + 65 <? 256) with true by lia]; reflexivity. }
    rewrite CH, bind_ok. destruct (OChar_spec (hexchar t) s I) as (s1 & A1 & I1 & T1 & _). rewrite A1, bind_ok.
    replace (Z.of_nat (S m) - 1) with (Z.of_nat m) by lia.
    destruct (IH fuel y (a mod 16 ^ Z.of_nat m) (b * 16 + t) s1) as (s2 & ds & A2 & I2 & T2 & L2 & N2); auto; try lia;
      try (apply Z.mod_pos_bound; apply Z.pow_pos_nonneg; lia).
    + exists s2, (hexchar t :: ds). split; auto. split; auto. split; [rewrite T2, T1, <- app_assoc; reflexivity|].
      split; [rewrite zlen_cons; lia|]. replace a with (t * 16 ^ zlen ds + a mod 16 ^ Z.of_nat m).
      * apply numeral_cons; auto; [lia|apply digval_hex; lia].
      * rewrite L2. unfold t. rewrite Z.mul_comm. symmetry. apply Z.div_mod. apply Z.pow_nonzero; lia.
Qed.

Lemma hex_width_spec : forall fuel x n, 0 <= x < 2 ^ 63 -> 1 <= n <= 16 -> 16 - n < Z.of_nat fuel ->
  exists w, hex_width fuel x n = Ok w /\ n <= w <= 16 /\ x < 16 ^ w /\ (w = n \/ 16 ^ (w - 1) <= x).
Proof.
  induction fuel as [|fuel IH]; intros x n Hx Hn F; [lia|]. cbn [hex_width]. destruct (n <? 16) eqn:E.
  - unfold LSH. replace (- (4 * n) >=? 0) with false by lia. unfold LSHR. change (promoted 64) with 64. rewrite Z.opp_involutive.
    replace (0 <=? 4 * n) with true by lia. replace (4 * n <? 64) with true by lia. cbn [andb]. rewrite bind_ok.
    assert (W : wrap_u 64 x = x). { apply wrap_u_id. unfold in_uint. change (2 ^ 63) with 9223372036854775808 in *. change (2 ^ 64) with 18446744073709551616. lia. }
    rewrite W, Z.shiftr_div_pow2 by lia. rewrite Z.pow_mul_r by lia. change (2 ^ 4) with 16.
    assert (P : 0 < 16 ^ n) by (apply Z.pow_pos_nonneg; lia).
    assert (D : 0 <= x / 16 ^ n <= x) by (split; [apply Z.div_pos; lia|apply Z.div_le_upper_bound; nia]).
    rewrite wrap_s_id. 2:{ lia. } 2:{ apply in_int64. change (2 ^ 63) with 9223372036854775808 in *. lia. }
    destruct (x / 16 ^ n =? 0) eqn:E0; cbn [negb].
    + exists n. split; auto. split; [lia|]. split; [|left; auto]. assert (x / 16 ^ n = 0) by lia. apply Z.div_small_iff in H; lia.
    + destruct (IH x (n + 1)) as (w & A & B & C & G); try lia. exists w. split; auto. split; [lia|]. split; auto. right.
      destruct G as [->|G]; auto. replace (n + 1 - 1) with n by lia. destruct (Z_lt_le_dec x (16 ^ n)) as [Q|Q]; [|auto]. rewrite Z.div_small in E0 by lia. discriminate.
  - exists n. split; auto. split; [lia|]. replace n with 16 by lia. split; [|left; reflexivity]. change (16 ^ 16) with 18446744073709551616. change (2 ^ 63) with 9223372036854775808 in *. lia.
Qed.

Definition clampw (n : Z) : Z := Z.max 1 (Z.min 16 n).
(** Common part: width w, 1 <= w <= 16, and for w = 16 a rotation by 0 that does nothing. *)
Lemma hex_tail : forall rot w x s, good_rot rot -> OInv s -> in_int 64 x -> 1 <= w <= 16 -> (w = 16 -> rot x 0 = Ok x) ->
  exists s' ds, (let* y := rot x (4 * (16 - w)) in hex_loop 17 full rot y w s) = Ok s' /\ OInv s' /\ otext s' = otext s ++ ds /\ zlen ds = w /\
    numeral 16 ds (x mod 2 ^ 64 mod 16 ^ w).
Proof.
  intros rot w x s GR I Hx Hw H16. pose proof (wrap_u_range 64 x ltac:(lia)) as R. unfold in_uint in R. rewrite <- wrap_u64. set (u := wrap_u 64 x) in *.
  assert (S : exists y, rot x (4 * (16 - w)) = Ok y /\ wrap_u 64 y = (u mod 16 ^ w) * 16 ^ (16 - w) + u / 16 ^ w /\ 0 <= u / 16 ^ w < 16 ^ (16 - w)).
  { destruct (Z.eq_dec w 16) as [->|N].
    - change (4 * (16 - 16)) with 0. exists x. split; auto. change (16 ^ 16) with (2 ^ 64). change (16 ^ (16 - 16)) with 1. rewrite Z.mod_small, Z.div_small by lia. fold u. lia.
    - rewrite GR by lia. destruct (ROT_rotv x (4 * (16 - w)) ltac:(lia)) as (y & A & B & C). exists y. split; auto. rewrite C. apply rot_start; lia. }
  destruct S as (y & A & B & C). rewrite A, bind_ok. replace w with (Z.of_nat (Z.to_nat w)) in B, C |- * by lia.
  destruct (hex_loop_spec rot GR (Z.to_nat w) 17 y _ _ s I B) as (s' & ds & D1 & D2 & D3 & D4 & D5); auto; try lia;
    try (apply Z.mod_pos_bound; apply Z.pow_pos_nonneg; lia).
  exists s', ds. auto.
Qed.
