(** Properties C01-C05: arithmetic, shifts, sets and run-time checks of the generated C. *)
From Verif Require Import Base ArithModel ArithSpec ArithProofs.

(** ** C01 DIV and MOD *)

Lemma floored_intro : forall x y, y <> 0 -> floored x y (x / y) (x mod y).
Proof.
  intros x y Hy. unfold floored. pose proof (Z.div_mod x y Hy). repeat split; intros; try lia;
  first [apply Z.mod_pos_bound; lia | apply Z.mod_neg_bound; lia].
Qed.

(** For operands of at most 32 bits (all SHORTINT, INTEGER and LONGINT of the default model): always defined
    and floored, in both emitted forms. *)
Theorem C01_div_mod_upto_32_bits : forall w x y, 0 < w <= 32 -> in_int w x -> in_int w y -> y <> 0 ->
  exists q r, floored x y q r /\
    SYSTEM_DIV x y = Ok q /\ SYSTEM_MOD x y = Ok r /\
    (forall v, 32 <= v <= 64 -> DIV_inline v x y = Ok q /\ MOD_inline v x y = Ok r).
Proof.
  intros w x y Hw Hx Hy H0.
  apply (in_int_mono w 32) in Hx; [|lia]. apply (in_int_mono w 32) in Hy; [|lia].
  destruct (small_safe x y Hx Hy H0) as [Sd Sm].
  pose proof (in_int_mono 32 64 x ltac:(lia) Hx) as Hx'.
  pose proof (in_int_mono 32 64 y ltac:(lia) Hy) as Hy'.
  apply (SYSTEM_DIV_defined x y Hx' Hy' H0) in Sd. destruct Sd as [q Hq].
  apply (SYSTEM_MOD_defined x y Hx' Hy' H0) in Sm. destruct Sm as [r Hr].
  exists q, r. refine (conj _ (conj Hq (conj Hr _))); [|intros v Hv; split].
  - rewrite (SYSTEM_DIV_floor _ _ _ Hq H0), (SYSTEM_MOD_floor _ _ _ Hr H0). apply floored_intro; auto.
  - rewrite DIV_inline_eq; auto; try lia; apply (in_int_mono 32); auto; lia.
  - rewrite MOD_inline_eq; auto; try lia; apply (in_int_mono 32); auto; lia.
Qed.
Print Assumptions C01_div_mod_upto_32_bits.
Example C01_nonvacuous : in_int 32 (-2147483648) /\ SYSTEM_DIV (-2147483648) (-7) = Ok 306783378 /\
  SYSTEM_MOD (-2147483648) (-7) = Ok (-2).
Proof. vm_compute. repeat split; congruence. Qed.

(** For 64-bit operands: whenever the C code has a defined result it is the floored one.
    Missing from the full claim: definedness, which fails (see below). *)
Theorem C01_div_mod_64_bits_partial : forall x y q r, in_int 64 x -> in_int 64 y -> y <> 0 ->
  SYSTEM_DIV x y = Ok q -> SYSTEM_MOD x y = Ok r -> floored x y q r.
Proof.
  intros x y q r _ _ H0 Hq Hr.
  rewrite (SYSTEM_DIV_floor _ _ _ Hq H0), (SYSTEM_MOD_floor _ _ _ Hr H0). apply floored_intro; auto.
Qed.
Print Assumptions C01_div_mod_64_bits_partial.

(** Exactly which 64-bit operands are computed without undefined behaviour. *)
Theorem C01_div_defined_iff : forall x y, in_int 64 x -> in_int 64 y -> y <> 0 ->
  ((exists q, SYSTEM_DIV x y = Ok q) <->
   (x = 0 \/ (0 < x /\ 0 < y) \/ (0 < x /\ y < 0 /\ x - y <= max_int 64 /\ min_int 64 < y)
    \/ (x < 0 /\ 0 < y /\ y - x <= max_int 64) \/ (x < 0 /\ y < 0 /\ min_int 64 < x /\ min_int 64 < y))).
Proof. intros x y Hx Hy H0. symmetry. exact (SYSTEM_DIV_defined x y Hx Hy H0). Qed.
Print Assumptions C01_div_defined_iff.

Theorem C01_mod_defined_iff : forall x y, in_int 64 x -> in_int 64 y -> y <> 0 ->
  ((exists r, SYSTEM_MOD x y = Ok r) <->
   (x = 0 \/ (0 < x /\ 0 < y) \/ (0 < x /\ min_int 64 < y < 0)
    \/ (min_int 64 < x < 0 /\ 0 < y) \/ (min_int 64 < x < 0 /\ min_int 64 < y < 0))).
Proof. intros x y Hx Hy H0. symmetry. exact (SYSTEM_MOD_defined x y Hx Hy H0). Qed.
Print Assumptions C01_mod_defined_iff.

(** The inline forms on 64-bit operands do what the routines do, so they are floored and defined for the same operands. *)
Theorem C01_inline_64_bits : forall x y, in_int 64 x -> in_int 64 y -> DIV_inline 64 x y = SYSTEM_DIV x y /\ MOD_inline 64 x y = SYSTEM_MOD x y.
Proof. intros x y Hx Hy. split; [apply DIV_inline_eq | apply MOD_inline_eq]; auto; lia. Qed.
Print Assumptions C01_inline_64_bits.

(** Finding: near the ends of the 64-bit range DIV overflows inside SYSTEM_DIV although the quotient is representable;
    under wrap-around arithmetic it even returns a quotient of the wrong sign. *)
Theorem C01_div_near_max_refuted : exists x y q r,
  in_int 64 x /\ in_int 64 y /\ y <> 0 /\ floored x y q r /\ in_int 64 q /\
  SYSTEM_DIV x y = UB /\
  SYSTEM_DIV_with (fun v => Ok (wrap_s 64 v)) x y <> Ok q.
Proof.
  exists 9223372036854775807, (-2), (-4611686018427387904), (-1).
  vm_compute. repeat split; congruence.
Qed.
Print Assumptions C01_div_near_max_refuted.

(** ** C02 ABS *)

Theorem C02_abs_inline : forall w x, 0 < w -> in_int w x -> in_int w (Z.abs x) -> ABS_inline w x = Ok (Z.abs x).
Proof.
  intros w x Hw Hx Ha. unfold ABS_inline. destruct (x <? 0) eqn:E.
  - replace (- x) with (Z.abs x) by lia. apply chk_ok; auto.
  - f_equal. lia.
Qed.
Print Assumptions C02_abs_inline.

(** ABS via the routine: right for operands of at most 4 bytes. *)
Theorem C02_abs_routine_partial : forall size x, 0 < size <= 4 -> in_int (8 * size) x -> x <> min_int 32 ->
  ABSF size x = Ok (Z.abs x).
Proof.
  intros size x Hs Hx Hm. apply (in_int_mono _ 32) in Hx; [|lia]. apply in_int32 in Hx.
  change (min_int 32) with (-2147483648) in Hm.
  unfold ABSF. replace (size <=? 4) with true by lia. unfold SYSTEM_ABS32.
  destruct (x >=? 0) eqn:E; [f_equal; lia|].
  rewrite chk_ok; [f_equal; lia|]. apply in_int32. lia.
Qed.
Print Assumptions C02_abs_routine_partial.
Example C02_nonvacuous : ABSF 4 (-2147483647) = Ok 2147483647 /\ ABS_inline 64 (-9223372036854775807) = Ok 9223372036854775807.
Proof. split; vm_compute; reflexivity. Qed.

(** Finding: SYSTEM_ABS64 is declared to return a 32-bit integer, so ABS of a 64-bit expression containing a
    call is truncated; it is right exactly for values of magnitude below 2^31. *)
Theorem C02_abs64_exact_domain : forall x, in_int 64 x -> in_int 64 (Z.abs x) ->
  (ABSF 8 x = Ok (Z.abs x) <-> Z.abs x <= max_int 32).
Proof.
  intros x Hx Ha. apply in_int64 in Hx. apply in_int64 in Ha. change (max_int 32) with 2147483647.
  unfold ABSF. change (8 <=? 4) with false. unfold SYSTEM_ABS64.
  assert (E : (if x >=? 0 then Ok x else chk 64 (- x)) = Ok (Z.abs x)).
  { destruct (x >=? 0) eqn:E; [f_equal; lia|]. rewrite chk_ok by (apply in_int64; lia). f_equal; lia. }
  cbv iota. rewrite E. rewrite bind_ok. split; intro H.
  - inversion H as [H1]. pose proof (wrap_s_range 32 (Z.abs x) ltac:(lia)) as R. rewrite H1 in R.
    apply in_int32 in R. lia.
  - rewrite wrap_s_id; auto; [lia|]. apply in_int32. lia.
Qed.
Print Assumptions C02_abs64_exact_domain.
Theorem C02_abs64_refuted : exists x, in_int 64 x /\ in_int 64 (Z.abs x) /\ ABSF 8 x = Ok 0 /\ Z.abs x <> 0.
Proof. exists (-4294967296). vm_compute. repeat split; congruence. Qed.
Print Assumptions C02_abs64_refuted.

(** ** C03 Shifts and rotates *)

Theorem C03_ash : forall x n, in_int 64 x -> -63 <= n <= 63 ->
  exists r, ASH x n = Ok r /\ in_int 64 r /\
    (0 <= n -> exists k, r = x * 2 ^ n + k * 2 ^ 64) /\
    (n <= 0 -> r * 2 ^ (- n) <= x < (r + 1) * 2 ^ (- n)).
Proof.
  intros x n Hx Hn. rewrite ASH_floor by auto. eexists. split; [reflexivity|].
  destruct (0 <=? n) eqn:E; refine (conj _ (conj _ _)).
  - apply wrap_s_range. lia.
  - intros _. exists (- ((x * 2 ^ n + 2 ^ (64 - 1)) / 2 ^ 64)). unfold wrap_s.
    pose proof (Z.div_mod (x * 2 ^ n + 2 ^ (64 - 1)) (2 ^ 64) ltac:(discriminate)). lia.
  - intro. assert (n = 0) by lia. subst. change (2 ^ (- 0)) with 1. change (2 ^ 0) with 1.
    rewrite !Z.mul_1_r. rewrite wrap_s_id by (auto; lia). lia.
  - pose proof (Z.pow_pos_nonneg 2 (- n) ltac:(lia) ltac:(lia)). unfold in_int in *.
    change (2 ^ (64 - 1)) with 9223372036854775808 in *.
    split; [apply Z.div_le_lower_bound; nia | apply Z.div_lt_upper_bound; nia].
  - lia.
  - intros _. pose proof (Z.pow_pos_nonneg 2 (- n) ltac:(lia) ltac:(lia)) as Hp.
    pose proof (Z.mul_div_le x (2 ^ (- n)) Hp).
    pose proof (Z.mul_succ_div_gt x (2 ^ (- n)) Hp). lia.
Qed.
Print Assumptions C03_ash.

Theorem C03_lsh : forall x n s, int_width s -> - s < n < s ->
  exists r, LSH x n s = Ok r /\ in_int s r /\
    forall i, 0 <= i < s -> Z.testbit r i = if (0 <=? i - n) && (i - n <? s) then Z.testbit x (i - n) else false.
Proof.
  intros x n s Hs Hn. destruct (LSH_bits x n s Hs Hn) as (r & H1 & H2 & H3).
  exists r. refine (conj H1 (conj H2 _)). intros i Hi. rewrite H3 by auto.
  destruct ((0 <=? i - n) && (i - n <? s)); reflexivity.
Qed.
Print Assumptions C03_lsh.

(** Rotation by a non-zero count: bit i of the result is bit (i-n) mod s of the operand, and rotating back restores it. *)
Theorem C03_rot_partial : forall x n s, int_width s -> in_int s x -> - s < n < s -> n <> 0 ->
  exists r, ROT x n s = Ok r /\ in_int s r /\
    (forall i, 0 <= i < s -> Z.testbit r i = Z.testbit x ((i - n) mod s)) /\
    ROT r (- n) s = Ok x.
Proof.
  intros x n s Hs Hx Hn H0.
  destruct (ROT_bits x n s Hs Hn H0) as (r & H1 & H2 & H3).
  destruct (ROT_inverse x n s Hs Hx Hn H0) as (r' & H4 & H5).
  rewrite H1 in H4. inversion H4; subst r'. exists r. auto.
Qed.
Print Assumptions C03_rot_partial.
Example C03_nonvacuous : ROT (-2147483648) 1 32 = Ok 1 /\ LSH (-1) (-31) 32 = Ok 1 /\ ASH (-5) (-1) = Ok (-3).
Proof. repeat split; vm_compute; reflexivity. Qed.

(** Finding: ROT by 0 shifts a 32- or 64-bit operand by its full width, which C leaves undefined. *)
Theorem C03_rot_by_zero_refuted : forall x, ROT x 0 32 = UB /\ ROT x 0 64 = UB.
Proof. intro x. split; reflexivity. Qed.
Print Assumptions C03_rot_by_zero_refuted.

(** On 8- and 16-bit operands it is harmless. *)
Theorem C03_rot_by_zero_short : forall x s, s = 8 \/ s = 16 -> in_int s x -> ROT x 0 s = Ok x.
Proof.
  intros x s Hs Hx. assert (H0 : 0 <= wrap_u s x < 2 ^ s) by (unfold wrap_u; apply Z.mod_pos_bound; apply Z.pow_pos_nonneg; destruct Hs; lia).
  assert (E : ROT x 0 s = Ok (wrap_s s (Z.lor (Z.shiftl (wrap_u s x) 0) (Z.shiftr (wrap_u s x) (s - 0))))) by (destruct Hs; subst s; reflexivity).
  rewrite E, Z.shiftl_0_r, Z.sub_0_r, Z.shiftr_div_pow2, Z.div_small, Z.lor_0_r by (destruct Hs; lia). f_equal.
  unfold in_int in Hx. destruct Hs; subst s; unfold wrap_s, wrap_u; cbn [Z.sub] in *.
  - change (2 ^ (8 - 1)) with 128 in *. change (2 ^ 8) with 256 in *. rewrite Zplus_mod_idemp_l, Z.mod_small; lia.
  - change (2 ^ (16 - 1)) with 32768 in *. change (2 ^ 16) with 65536 in *. rewrite Zplus_mod_idemp_l, Z.mod_small; lia.
Qed.
Print Assumptions C03_rot_by_zero_short.

(** ** C04 SET *)

Theorem C04_set_constructors : forall size a b, set_width size -> 0 <= a < size -> 0 <= b < size ->
  exists e r, SETOF a size = Ok e /\ SETRNG a b size = Ok r /\ in_uint size e /\ in_uint size r /\
    forall i, (member i e <-> i = a) /\ (member i r <-> a <= i <= b).
Proof.
  intros size a b Hs Ha Hb. assert (0 < size) by (destruct Hs; lia).
  destruct (SETOF_bits a size ltac:(lia) Ha) as (e & He & Re & Be).
  destruct (SETRNG_bits a b size ltac:(lia) Ha Hb) as (r & Hr & Rr & Br).
  exists e, r. refine (conj He (conj Hr (conj Re (conj Rr _)))).
  intro i. unfold member. split; split.
  - intros [H1 H2]. rewrite Be in H2 by lia. lia.
  - intros ->. rewrite Be by lia. lia.
  - intros [H1 H2]. rewrite Br in H2 by lia. lia.
  - intros H2. rewrite Br by lia. lia.
Qed.
Print Assumptions C04_set_constructors.

Theorem C04_set_operators : forall size a b, set_width size -> in_uint size a -> in_uint size b -> forall i,
  (member i (set_plus a b) <-> member i a \/ member i b) /\
  (member i (set_minus size a b) <-> member i a /\ ~ member i b) /\
  (member i (set_times a b) <-> member i a /\ member i b) /\
  (member i (set_slash a b) <-> (member i a /\ ~ member i b) \/ (member i b /\ ~ member i a)) /\
  (member i (set_compl size a) <-> 0 <= i < size /\ ~ member i a).
Proof.
  intros size a b Hs Ha Hb i. assert (0 < size) by (destruct Hs; lia).
  unfold member. destruct (Z.ltb_spec i 0).
  { repeat split; intros; intuition lia. }
  destruct (set_ops_bits size a b i ltac:(lia) Ha Hb ltac:(lia)) as (E1 & E2 & E3 & E4 & E5).
  rewrite E1, E2, E3, E4, E5.
  destruct (Z.testbit a i) eqn:Ta; destruct (Z.testbit b i) eqn:Tb; destruct (i <? size) eqn:Es;
    cbn [negb andb orb xorb]; intuition (try congruence; try lia).
Qed.
Print Assumptions C04_set_operators.

Theorem C04_set_operators_stay_in_type : forall size a b, set_width size -> in_uint size a -> in_uint size b ->
  in_uint size (set_plus a b) /\ in_uint size (set_minus size a b) /\ in_uint size (set_times a b) /\
  in_uint size (set_slash a b) /\ in_uint size (set_compl size a).
Proof. intros size a b Hs. apply set_ops_range. destruct Hs; lia. Qed.
Print Assumptions C04_set_operators_stay_in_type.

Theorem C04_incl_excl : forall size s x, set_width size -> in_uint size s -> 0 <= x < size ->
  exists p m, INCL size s x = Ok p /\ EXCL size s x = Ok m /\ in_uint size p /\ in_uint size m /\
    forall i, (member i p <-> member i s \/ i = x) /\ (member i m <-> member i s /\ i <> x).
Proof.
  intros size s x Hs Hu Hx. assert (0 < size) by (destruct Hs; lia).
  destruct (INCL_bits size s x ltac:(lia) Hu Hx) as (p & Hp & Rp & Bp).
  destruct (EXCL_bits size s x ltac:(lia) Hu Hx) as (m & Hm & Rm & Bm).
  exists p, m. refine (conj Hp (conj Hm (conj Rp (conj Rm _)))).
  intro i. unfold member. destruct (Z.ltb_spec i 0). { split; intuition lia. }
  rewrite Bp, Bm by lia. destruct (Z.testbit s i) eqn:T; destruct (i =? x) eqn:E; cbn [negb andb orb];
    intuition (try congruence; try lia).
Qed.
Print Assumptions C04_incl_excl.

(** Membership for an element expression of at most 32 bits: the test is exact, also for elements outside the set range. *)
Theorem C04_in_partial : forall size s x, set_width size -> in_uint size s -> in_int 32 x ->
  exists b, SET_IN x s size = Ok b /\ (b = true <-> member x s).
Proof.
  intros size s x Hs Hu Hx. rewrite SET_IN_spec by auto. eexists. split; [reflexivity|].
  unfold member. assert (0 < size) by (destruct Hs; lia). split.
  - intro H1. destruct (Z.testbit s x); [|rewrite andb_false_r in H1; discriminate]. split; [lia|auto].
  - intros [H1 H2]. rewrite H2. replace (0 <=? x) with true by lia.
    destruct (x <? size) eqn:E; auto. rewrite (uint_bits_high size s x) in H2 by (auto; lia). discriminate.
Qed.
Print Assumptions C04_in_partial.
Example C04_nonvacuous : SETRNG 3 5 32 = Ok 56 /\ SET_IN 4 56 32 = Ok true /\ SET_IN (-1) 56 32 = Ok false /\
  INCL 32 56 31 = Ok 2147483704.
Proof. repeat split; vm_compute; reflexivity. Qed.

(** Finding: with a 64-bit element the range test of IN looks only at the low 32 bits, so the shift count
    can exceed the width. *)
Theorem C04_in_hugeint_refuted : exists x s, in_int 64 x /\ in_uint 32 s /\ SET_IN x s 32 = UB.
Proof. exists 4294967296, 1. vm_compute. repeat split; congruence. Qed.
Print Assumptions C04_in_hugeint_refuted.

(** Exactly when that happens: the element is outside the set but its low 32 bits are not.  For every other 64-bit element the test is exact. *)
Theorem C04_in_64_bits : forall size s x, set_width size -> in_uint size s -> in_int 64 x ->
  (SET_IN x s size = UB <-> ~ 0 <= x < size /\ x mod 2 ^ 32 < size) /\
  (0 <= x < size \/ size <= x mod 2 ^ 32 -> exists b, SET_IN x s size = Ok b /\ (b = true <-> member x s)).
Proof.
  intros size s x Hs Hu Hx. unfold SET_IN, wrap_u. assert (Hp : 0 < size <= 64) by (destruct Hs; lia).
  destruct (x mod 2 ^ 32 <? size) eqn:E1; [destruct ((0 <=? x) && (x <? size)) eqn:E2|].
  - split; [split; [discriminate | intros [H _]; lia]|]. intros _. eexists. split; [reflexivity|].
    rewrite Z.land_spec, Z.shiftr_spec, Z.add_0_l by lia. change (Z.testbit 1 0) with true. rewrite andb_true_r. unfold member. intuition lia.
  - split; [split; [intros _; lia | reflexivity]|]. intros [H|H]; lia.
  - split; [split; [discriminate | intros [_ H]; lia]|]. intros _. exists false. split; [reflexivity|]. split; [discriminate|]. intros [H1 H2].
    destruct (x <? size) eqn:E; [rewrite Z.mod_small in E1 by lia; lia|]. rewrite (uint_bits_high size s x) in H2 by (auto; lia). discriminate.
Qed.
Print Assumptions C04_in_64_bits.

(** ** C05 Run-time checks *)

(** The routine forms (used when the checked expression contains a call) are exact. *)
Theorem C05_index_check_routine : forall i n, in_int 64 i -> 0 <= n <= max_int 64 ->
  (0 <= i < n -> XF i n = Ok i) /\ (~ 0 <= i < n -> XF i n = Trap (-2)).
Proof.
  intros i n Hi Hn. rewrite XF_exact by auto.
  destruct ((0 <=? i) && (i <? n)) eqn:E; split; intros; auto; lia.
Qed.
Print Assumptions C05_index_check_routine.

Theorem C05_chr_routine : forall x, in_int 64 x ->
  (0 <= x < 256 -> CHRF x = Ok x) /\ (~ 0 <= x < 256 -> CHRF x = Trap (-8)).
Proof.
  intros x Hx. rewrite CHRF_exact by auto.
  destruct ((0 <=? x) && (x <? 256)) eqn:E; split; intros; auto; lia.
Qed.
Print Assumptions C05_chr_routine.

(** SHORT, inline form: exact for every 64-bit value. *)
Theorem C05_short_inline : forall to x, (to = 8 \/ to = 16 \/ to = 32) -> in_int 64 x ->
  (in_int to x -> SHORT_inline x (max_int to + 1) = Ok x) /\
  (~ in_int to x -> SHORT_inline x (max_int to + 1) = Trap (-8)).
Proof.
  intros to x Ht Hx. rewrite SHORT_inline_exact by auto.
  destruct (in_intb to x) eqn:E; split; intro H; auto.
  - apply in_intb_iff in E. contradiction.
  - apply in_intb_iff in H. congruence.
Qed.
Print Assumptions C05_short_inline.

(** SHORT, routine form: exact as long as adding the bias does not overflow the operand's C type. *)
Theorem C05_short_routine_partial : forall w to x, (w = 32 \/ w = 64) -> (to = 8 \/ to = 16 \/ to = 32) ->
  in_int w x -> in_int w (x + (max_int to + 1)) ->
  (in_int to x -> SHORTF w x (max_int to + 1) = Ok x) /\
  (~ in_int to x -> SHORTF w x (max_int to + 1) = Trap (-8)).
Proof.
  intros w to x Hw Ht Hx Hs. rewrite SHORTF_exact by auto.
  destruct (in_intb to x) eqn:E; split; intro H; auto.
  - apply in_intb_iff in E. contradiction.
  - apply in_intb_iff in H. congruence.
Qed.
Print Assumptions C05_short_routine_partial.

(** For the other operands, which are within MAX + 1 of the type's maximum and so out of range, the addition overflows: undefined instead of the trap. *)
Theorem C05_short_routine_refuted : forall w to x, (to = 8 \/ to = 16 \/ to = 32) -> to < w -> in_int w x -> ~ in_int w (x + (max_int to + 1)) ->
  ~ in_int to x /\ SHORTF w x (max_int to + 1) = UB.
Proof.
  intros w to x Ht Hw Hx Hs. assert (H1 : 0 < to) by (destruct Ht as [|[|]]; lia). split.
  - intro H. apply Hs. unfold in_int, max_int in *. pose proof (Z.pow_le_mono_r 2 (to - 1) (w - 2) ltac:(lia) ltac:(lia)).
    assert (2 ^ (w - 1) = 2 * 2 ^ (w - 2)) by (rewrite <- (Z.pow_succ_r 2 (w - 2)) by lia; f_equal; lia). pose proof (Z.pow_pos_nonneg 2 (to - 1)). lia.
  - unfold SHORTF, chk. destruct (in_intb w (x + (max_int to + 1))) eqn:E; [apply in_intb_iff in E; contradiction | reflexivity].
Qed.
Print Assumptions C05_short_routine_refuted.
Example C05_short_routine_case : in_int 32 2147483600 /\ SHORTF 32 2147483600 (max_int 8 + 1) = UB.
Proof. vm_compute. repeat split; congruence. Qed.

(** The inline index and CHR checks are exact for non-negative values... *)
Theorem C05_index_check_inline_partial : forall i n, 0 <= i ->
  (i < n -> X_inline i n = Ok i) /\ (n <= i -> X_inline i n = Trap (-2)).
Proof.
  intros i n Hi. unfold X_inline. destruct (i <? n) eqn:E; split; intros; auto; lia.
Qed.
Print Assumptions C05_index_check_inline_partial.

Theorem C05_chr_inline_partial : forall x, 0 <= x ->
  (x < 256 -> CHR_inline x = Ok x) /\ (256 <= x -> CHR_inline x = Trap (-8)).
Proof.
  intros x Hx. rewrite CHR_inline_nonneg by auto. destruct (x <? 256) eqn:E; split; intros; auto; lia.
Qed.
Print Assumptions C05_chr_inline_partial.
Example C05_nonvacuous : XF (-1) 10 = Trap (-2) /\ XF 9 10 = Ok 9 /\ SHORT_inline 40000 (max_int 16 + 1) = Trap (-8)
  /\ SHORTF 64 (-32768) (max_int 16 + 1) = Ok (-32768).
Proof. repeat split; vm_compute; reflexivity. Qed.

(** Finding: ... but every negative index passes the inline check unchanged (a[-1] is accessed), and a negative CHR
    argument is silently reduced modulo 256. *)
Theorem C05_negative_index_refuted : forall i n, i < 0 -> 0 <= n -> X_inline i n = Ok i.
Proof. intros i n Hi Hn. unfold X_inline. replace (i <? n) with true by lia. reflexivity. Qed.
Print Assumptions C05_negative_index_refuted.
Theorem C05_negative_chr_refuted : forall x, x < 0 -> CHR_inline x = Ok (x mod 256).
Proof. intros x Hx. unfold CHR_inline, R_inline. replace (x <? 256) with true by lia. reflexivity. Qed.
Print Assumptions C05_negative_chr_refuted.

(** CAP on letters (the only arguments the language defines) and ODD. *)
Theorem C05_cap_odd : forall c x, is_byte c ->
  (97 <= c <= 122 -> CAP c = c - 32) /\ (65 <= c <= 90 -> CAP c = c) /\ (ODD x = true <-> exists k, x = 2 * k + 1).
Proof.
  intros c x Hc. destruct (CAP_letter c Hc) as [H1 H2]. refine (conj H1 (conj H2 _)).
  rewrite ODD_spec. rewrite Z.odd_spec. reflexivity.
Qed.
Print Assumptions C05_cap_odd.
