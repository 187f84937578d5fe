(** The text written by Out.RealP. *)
From Coq Require Import Reals Lra Psatz.
From Verif Require Import Base OrealModel OrealSpec OrealProofs OrealScale.
From Flocq Require Import Core Relative IEEE754.BinarySingleNaN.
Local Open Scope Z_scope.

Lemma val_acc : forall ds a, fold_left (fun a c => 10 * a + (c - 48)) ds a = a * 10 ^ Z.of_nat (length ds) + val ds.
Proof.
  unfold val. induction ds as [|c ds IH]; intros a; cbn [fold_left length].
  - change (10 ^ Z.of_nat 0) with 1. lia.
  - rewrite (IH (10 * a + (c - 48))), (IH (10 * 0 + (c - 48))). rewrite Nat2Z.inj_succ, Z.pow_succ_r by lia. ring.
Qed.
Lemma val_cons : forall c ds, val (c :: ds) = (c - 48) * 10 ^ Z.of_nat (length ds) + val ds.
Proof. intros c ds. unfold val at 1. cbn [fold_left]. rewrite val_acc. ring. Qed.
Lemma val_snoc : forall ds c, val (ds ++ [c]) = 10 * val ds + (c - 48).
Proof. intros ds c. unfold val. rewrite fold_left_app. reflexivity. Qed.
Lemma push_ok : forall c b, Z.of_nat (length b) < 30 -> push c b = Ok (c :: b).
Proof. intros c b H. unfold push. replace (Z.of_nat (length b) <? 30) with true by lia. reflexivity. Qed.
Lemma is_digit_mod : forall n, is_digit (n mod 10 + 48).
Proof. intros n. unfold is_digit. pose proof (Z.mod_pos_bound n 10 ltac:(lia)). lia. Qed.
Lemma digits_ok : forall k n b, (length b + k <= 30)%nat -> exists ds, digits k n b = Ok (ds ++ b, n / 10 ^ Z.of_nat k) /\ length ds = k /\ Forall is_digit ds /\ val ds = n mod 10 ^ Z.of_nat k.
Proof.
  induction k as [|k IH]; intros n b H; cbn [digits].
  - exists []. change (10 ^ Z.of_nat 0) with 1. rewrite Z.div_1_r, Z.mod_1_r. repeat split; auto.
  - unfold digit. rewrite push_ok by lia. cbn [bind]. destruct (IH (n / 10) ((n mod 10 + 48) :: b)) as (ds & E & L & F & V); [cbn [length]; lia|].
    exists (ds ++ [n mod 10 + 48]). rewrite E, <- app_assoc. cbn [app]. rewrite Nat2Z.inj_succ, Z.pow_succ_r by lia.
    assert (0 < 10 ^ Z.of_nat k) by (apply Z.pow_pos_nonneg; lia).
    split; [|split; [|split]].
    + rewrite Z.div_div by lia. reflexivity.
    + rewrite app_length. cbn [length]. lia.
    + apply Forall_app. split; [auto|]. constructor; [apply is_digit_mod|constructor].
    + rewrite val_snoc, V. rewrite Z.rem_mul_r by lia. lia.
Qed.
Lemma drop_ok : forall f m d dr, d - dr < Z.of_nat f -> 1 <= dr <= d -> 0 <= m < 10 ^ d ->
  exists m' d', drop f m d dr = Ok (m', d') /\ dr <= d' <= d /\ m = m' * 10 ^ (d - d') /\ 0 <= m' < 10 ^ d'.
Proof.
  induction f as [|f IH]; intros m d dr F D M; [lia|]. cbn [drop].
  destruct ((d >? dr) && (m mod 10 =? 0)) eqn:E.
  - assert (E' : dr < d /\ m mod 10 = 0) by lia. destruct E' as [E1 E2].
    assert (M10 : m = 10 * (m / 10)) by (pose proof (Z.div_mod m 10 ltac:(lia)); lia).
    assert (P : 10 ^ d = 10 * 10 ^ (d - 1)) by (rewrite <- Z.pow_succ_r by lia; f_equal; lia).
    destruct (IH (m / 10) (d - 1) dr) as (m' & d' & R & D' & V & B); [lia|lia|lia|].
    exists m', d'. split; [auto|]. split; [lia|]. split; [|auto].
    replace (d - d') with (Z.succ (d - 1 - d')) by lia. rewrite Z.pow_succ_r by lia. lia.
  - exists m, d. split; [auto|]. split; [lia|]. split; [|lia]. rewrite Z.sub_diag. change (10 ^ 0) with 1. lia.
Qed.

(** The parts of a normal number. *)
Lemma normal_parts : forall (x : dbl), is_finite x = true -> (p2 (-1022) <= Rabs (B2R x))%R ->
  exists E, field x = E + 1023 /\ -1022 <= E <= 1023 /\ (p2 E <= Rabs (B2R x) < p2 (E + 1))%R.
Proof.
  intros x F N. destruct x as [s|s| |s m ex B]; try discriminate.
  - exfalso. cbn [B2R] in N. rewrite Rabs_R0 in N. pose proof (bpow_gt_0 radix2 (-1022)). lra.
  - pose proof B as B'. unfold SpecFloat.bounded in B'. apply andb_prop in B'. destruct B' as [C1 C2].
    unfold SpecFloat.canonical_mantissa in C1. apply Zeq_bool_eq in C1. unfold SpecFloat.fexp, SpecFloat.emin in C1. apply Zle_bool_imp_le in C2.
    rewrite Zpos_digits2_pos in C1. set (D := Zdigits radix2 (Z.pos m)) in *.
    assert (DB : 2 ^ (D - 1) <= Z.pos m < 2 ^ D).
    { pose proof (Zdigits_correct radix2 (Z.pos m)) as H. cbn [Z.abs] in H. fold D in H. exact H. }
    assert (D0 : 0 < D) by (apply Zdigits_gt_0; discriminate).
    assert (AB : (Rabs (B2R (B754_finite s m ex B)) = IZR (Z.pos m) * p2 ex)%R).
    { cbn [B2R]. rewrite <- F2R_Zabs. unfold F2R. cbn [Fnum Fexp]. f_equal. f_equal. destruct s; reflexivity. }
    rewrite AB in N |- *.
    assert (M53 : Z.pos m < 2 ^ 53). { apply Z.lt_le_trans with (2 ^ D); [lia|]. apply Z.pow_le_mono_r; lia. }
    assert (EX : -1074 <= ex <= 971) by lia.
    assert (M52 : 2 ^ 52 <= Z.pos m).
    { destruct (Z.eq_dec D 53) as [E|E]; [rewrite E in DB; exact (proj1 DB)|].
      assert (EX' : ex = -1074) by lia. rewrite EX' in N. apply le_IZR.
      replace (IZR (2 ^ 52)) with (p2 52) by (simpl; lra). apply Rmult_le_reg_r with (p2 (-1074)); [apply bpow_gt_0|].
      rewrite <- bpow_plus. exact N. }
    exists (ex + 52). unfold field. replace (Z.pos m <? 2 ^ 52) with false by lia. split; [lia|]. split; [lia|].
    pose proof (bpow_gt_0 radix2 ex) as P. split.
    + rewrite Z.add_comm, bpow_plus. apply Rmult_le_compat_r; [lra|]. replace (p2 52) with (IZR (2 ^ 52)) by (simpl; lra). now apply IZR_le.
    + replace (ex + 52 + 1) with (53 + ex) by lia. rewrite bpow_plus. apply Rmult_lt_compat_r; [lra|]. replace (p2 53) with (IZR (2 ^ 53)) by (simpl; lra). now apply IZR_lt.
Qed.
Lemma small_parts : forall (x : dbl), is_finite x = true -> (Rabs (B2R x) < p2 (-1022))%R -> field x = 0.
Proof.
  intros x F N. destruct x as [s|s| |s m ex B]; try discriminate; auto.
  pose proof B as B'. unfold SpecFloat.bounded in B'. apply andb_prop in B'. destruct B' as [C1 C2].
  unfold SpecFloat.canonical_mantissa in C1. apply Zeq_bool_eq in C1. unfold SpecFloat.fexp, SpecFloat.emin in C1.
  assert (AB : (Rabs (B2R (B754_finite s m ex B)) = IZR (Z.pos m) * p2 ex)%R).
  { cbn [B2R]. rewrite <- F2R_Zabs. unfold F2R. cbn [Fnum Fexp]. f_equal. f_equal. destruct s; reflexivity. }
  rewrite AB in N. unfold field. destruct (Z.pos m <? 2 ^ 52) eqn:E; auto. exfalso.
  assert (p2 (-1022) <= IZR (Z.pos m) * p2 ex)%R; [|lra].
  apply Rle_trans with (p2 52 * p2 ex)%R.
  - rewrite <- bpow_plus. apply bpow_le. lia.
  - apply Rmult_le_compat_r; [apply bpow_ge_0|]. replace (p2 52) with (IZR (2 ^ 52)) by (simpl; lra). apply IZR_le. lia.
Qed.

(** The scaling as a whole. *)
Lemma scale_ok : forall (x : dbl) E (el : nat) d, is_finite x = true -> -1022 <= E <= 1023 -> (p2 E <= B2R x < p2 (E + 1))%R -> 6 <= d <= 17 ->
  (el = 3%nat \/ el = 2%nat /\ -150 <= E <= 127) ->
  exists xs m e, scale x (E + 1023) (Z.of_nat el) d = Ok ((if e <? 0 then 45 else 43) :: xs, m) /\ Forall is_digit xs /\ length xs = el /\ val xs = Z.abs e /\ 0 <= m < 10 ^ d /\
    (B2R x * (1 + 1 / 2199023255552) + p10 (e + 1 - d) < p10 (e + 1) -> Rabs (IZR m * p10 (e + 1 - d) - B2R x) <= 1 / 2 * p10 (e + 1 - d) + 1 / 4398046511104 * B2R x)%R.
Proof.
  intros x E el d F EB X D L. unfold scale. replace (E + 1023 - 1023) with E by lia.
  destruct (step1 x E F EB X) as (x1 & S1 & F1 & R1 & Q1). set (a := E * 77 / 256) in *. rewrite S1. cbn [bind].
  destruct (step2 x1 _ a F1 R1 Q1) as (x2 & e & S2 & F2 & A2 & R2 & B2). rewrite S2.
  rewrite Nat2Z.id. destruct (digits_ok el (Z.abs e) []) as (xs & G1 & G2 & G3 & G4); [cbn [length]; lia|].
  rewrite G1. cbn [bind]. rewrite app_nil_r. rewrite push_ok by lia. cbn [bind].
  destruct (step3 x2 _ e d F2 D R2 B2) as (x0 & m & T1 & T2 & T3 & T4). rewrite T1. cbn [bind]. rewrite T2. cbn [bind].
  exists xs, m, e. split; [reflexivity|]. split; [auto|]. split; [auto|]. split; [|split; auto].
  rewrite G4. apply Z.mod_small. split; [lia|].
  assert (AB : -308 <= a <= 308) by (apply (estimate_ok E EB)).
  destruct L as [L|[L L']]; subst el.
  - change (10 ^ Z.of_nat 3) with 1000. lia.
  - change (10 ^ Z.of_nat 2) with 100. assert (-46 <= a <= 38); [|lia]. unfold a. split; [apply Z.div_le_lower_bound; lia|apply Z.lt_succ_r; apply Z.div_lt_upper_bound; lia].
Qed.

(** Everything after the sign, when the exponent and the digits are known. *)
Lemma tail_ok : forall mark c xs m d dr, (length xs <= 3)%nat -> Forall is_digit xs -> 2 <= dr <= d -> d <= 17 -> 0 <= m < 10 ^ d ->
  exists d0 ds, (let* b := push mark (c :: xs) in let* (m, d) := drop 20 m d dr in let* (b, m) := digits (Z.to_nat (d - 1)) m b in let* b := push 46 b in digit m b)
    = Ok (d0 :: 46 :: ds ++ mark :: c :: xs) /\ Forall is_digit (d0 :: ds) /\ (1 <= length ds <= 16)%nat /\ Z.of_nat (length ds) <= d - 1 /\ m = val (d0 :: ds) * 10 ^ (d - 1 - Z.of_nat (length ds)).
Proof.
  intros mark c xs m d dr L F D D17 M. rewrite push_ok by (cbn [length]; lia). cbn [bind].
  destruct (drop_ok 20 m d dr) as (m' & d' & R & D' & V & B); [lia|lia|auto|]. rewrite R. cbn [bind].
  destruct (digits_ok (Z.to_nat (d' - 1)) m' (mark :: c :: xs)) as (ds & G1 & G2 & G3 & G4); [cbn [length]; lia|].
  rewrite G1. cbn [bind]. rewrite push_ok by (rewrite app_length; cbn [length]; lia). cbn [bind]. unfold digit.
  rewrite push_ok by (cbn [length]; rewrite app_length; cbn [length]; lia).
  rewrite Z2Nat.id in * by lia. assert (P : 10 ^ d' = 10 * 10 ^ (d' - 1)) by (rewrite <- Z.pow_succ_r by lia; f_equal; lia).
  assert (P0 : 0 < 10 ^ (d' - 1)) by (apply Z.pow_pos_nonneg; lia).
  assert (Q : 0 <= m' / 10 ^ (d' - 1) < 10). { split; [apply Z.div_pos; lia|apply Z.div_lt_upper_bound; lia]. }
  rewrite (Z.mod_small (m' / _)) by lia.
  exists (m' / 10 ^ (d' - 1) + 48), ds. split; [reflexivity|]. split; [constructor; [unfold is_digit; lia|auto]|]. split; [lia|]. split; [lia|].
  rewrite val_cons, G2, Z2Nat.id, G4 by lia. rewrite V. f_equal; [|f_equal; lia].
  pose proof (Z.div_mod m' (10 ^ (d' - 1)) ltac:(lia)). lia.
Qed.

(** The range of REAL. *)
Definition single_range (x : dbl) : Prop := B2R x = 0%R \/ (p2 (-149) <= Rabs (B2R x) < p2 128)%R.
Lemma opp_ok : forall x : dbl, is_finite x = true -> let y := if Bsign x then Bopp x else x in is_finite y = true /\ B2R y = Rabs (B2R x).
Proof.
  intros x F. destruct x as [s|s| |s m ex B]; try discriminate.
  - destruct s; cbn [Bsign]; (split; [reflexivity|]); cbn; now rewrite Rabs_R0.
  - assert (P : (0 < F2R (Float radix2 (Z.pos m) ex))%R) by (apply F2R_gt_0; reflexivity).
    destruct s; cbn [Bsign]; (split; [reflexivity|]).
    + cbn [B2R Bopp negb]. change (cond_Zopp true (Z.pos m)) with (- Z.pos m). change (cond_Zopp false (Z.pos m)) with (Z.pos m).
      rewrite F2R_Zopp, Rabs_Ropp, Rabs_pos_eq; lra.
    + cbn [B2R]. change (cond_Zopp false (Z.pos m)) with (Z.pos m). rewrite Rabs_pos_eq; lra.
Qed.
Lemma fin_ok : forall (n : Z) (nn : bool) (b : list Z), hd_error b <> Some 32 -> b <> [] ->
  adjusted (repeat 32 (Z.to_nat ((if nn then n - 1 else n) - Z.of_nat (length b))) ++ (if nn then [45] else []) ++ b) n.
Proof.
  intros n nn b H N. exists (Z.to_nat ((if nn then n - 1 else n) - Z.of_nat (length b))), ((if nn then [45] else []) ++ b). split; [reflexivity|]. split.
  - destruct nn; [discriminate|exact H].
  - rewrite app_length. destruct nn; cbn [length]; lia.
Qed.
Lemma finite_nan : forall x : dbl, is_finite x = true -> is_nan x = false.
Proof. now intros [| | |]. Qed.

Lemma RealP_ok : forall (x : dbl) n (long : bool), is_finite x = true -> (long = true \/ single_range x) ->
  exists t M k e, RealP x n long = Ok t /\ exponential (if long then 68 else 69) (if long then 3%nat else 2%nat) t (Bsign x) M k e /\ adjusted t n /\ (1 <= k <= 16)%nat /\
    ((Rabs (B2R x) < p2 (-1022))%R -> M = 0 /\ e = 0) /\
    let d := precision long (Bsign x) n in
    ((p2 (-1022) <= Rabs (B2R x))%R -> (Rabs (B2R x) * (1 + 1 / 2199023255552) + p10 (e + 1 - d) < p10 (e + 1))%R ->
     (Rabs (IZR M * p10 (e - Z.of_nat k) - Rabs (B2R x)) <= 1 / 2 * p10 (e + 1 - d) + 1 / 4398046511104 * Rabs (B2R x))%R).
Proof.
  intros x n long F S. unfold RealP. rewrite (finite_nan x F). cbn [negb]. rewrite andb_true_r.
  set (nn := Bsign x) in *. set (el := if long then 3%nat else 2%nat).
  replace (if long then 3 else 2) with (Z.of_nat el) by (unfold el; destruct long; reflexivity).
  set (mark := if long then 68 else 69).
  set (dr := Z.min ((if nn then n - 1 else n) - (if long then 6 else 5)) (if long then 17 else 9)).
  set (d := Z.max dr (if long then 15 else 6)).
  assert (PD : precision long nn n = d) by (unfold precision, d, dr; destruct long; lia).
  assert (DB : 6 <= d <= 17 /\ 2 <= Z.max dr 2 <= d) by (unfold d, dr; destruct long; lia).
  destruct (opp_ok x F) as [YF YV]. fold nn in YF, YV. set (y := if nn then Bopp x else x) in *.
  rewrite PD. cbv zeta. change (scale (if nn then Bopp x else x)) with (scale y).
  assert (CORE : exists (xneg : bool) xs m, Forall is_digit xs /\ length xs = el /\ 0 <= m < 10 ^ d /\
    (if field x =? 2047 then UB else if field x =? 0 then let* (b, _) := digits (Z.to_nat (Z.of_nat el)) 0 [] in let* b := push 43 b in Ok (b, 0) else scale y (field x) (Z.of_nat el) d)
      = Ok ((if xneg then 45 else 43) :: xs, m) /\
    let e := if xneg then - val xs else val xs in
    ((Rabs (B2R x) < p2 (-1022))%R -> m = 0 /\ e = 0) /\
    ((p2 (-1022) <= Rabs (B2R x))%R -> (Rabs (B2R x) * (1 + 1 / 2199023255552) + p10 (e + 1 - d) < p10 (e + 1))%R ->
     (Rabs (IZR m * p10 (e + 1 - d) - Rabs (B2R x)) <= 1 / 2 * p10 (e + 1 - d) + 1 / 4398046511104 * Rabs (B2R x))%R)).
  { destruct (Rlt_le_dec (Rabs (B2R x)) (p2 (-1022))) as [N|N].
    - rewrite (small_parts x F N). cbn [Z.eqb]. rewrite Nat2Z.id.
      destruct (digits_ok el 0 []) as (xs & G1 & G2 & G3 & G4); [cbn [length]; unfold el; destruct long; lia|].
      rewrite G1. cbn [bind]. rewrite app_nil_r. rewrite push_ok by (rewrite G2; unfold el; destruct long; lia). cbn [bind].
      rewrite Z.mod_0_l in G4 by (apply Z.pow_nonzero; lia).
      exists false, xs, 0. split; [auto|]. split; [auto|]. split; [split; [lia|apply Z.pow_pos_nonneg; lia]|]. split; [reflexivity|]. cbv zeta. split; [auto|].
      intros N'. exfalso. lra.
    - destruct (normal_parts x F N) as (E & FE & EB & XB). rewrite FE.
      replace (E + 1023 =? 2047) with false by lia. replace (E + 1023 =? 0) with false by lia.
      rewrite <- YV in XB.
      destruct (scale_ok y E el d YF EB XB (proj1 DB)) as (xs & m & e & C1 & C2 & C3 & C4 & C5 & C6).
      { unfold el. destruct long; [now left|right]. split; [reflexivity|]. destruct S as [S|S]; [discriminate|].
        destruct S as [S|S]; [exfalso; rewrite S, Rabs_R0 in N; pose proof (bpow_gt_0 radix2 (-1022)); lra|]. rewrite <- YV in S.
        assert (-149 < E + 1) by (apply (lt_bpow radix2); lra). assert (E < 128) by (apply (lt_bpow radix2); lra). lia. }
      exists (e <? 0), xs, m. split; [auto|]. split; [auto|]. split; [auto|]. split; [exact C1|].
      replace (if e <? 0 then - val xs else val xs) with e by (rewrite C4; destruct (e <? 0) eqn:?; lia).
      cbv zeta. split; [intros N'; exfalso; lra|]. intros _. rewrite YV in C6. exact C6. }
  destruct CORE as (xneg & xs & m & C1 & C2 & C3 & C4 & C5 & C6).
  destruct (field x =? 2047); [discriminate|]. rewrite C4. cbn [bind].
  destruct (tail_ok mark (if xneg then 45 else 43) xs m d (Z.max dr 2)) as (d0 & ds & T1 & T2 & T3 & T5 & T4); try tauto; try lia.
  { rewrite C2. unfold el. destruct long; lia. }
  rewrite T1. cbn [bind].
  exists (repeat 32 (Z.to_nat ((if nn then n - 1 else n) - Z.of_nat (length (d0 :: 46 :: ds ++ mark :: (if xneg then 45 else 43) :: xs)))) ++ (if nn then [45] else []) ++
    d0 :: 46 :: ds ++ mark :: (if xneg then 45 else 43) :: xs), (val (d0 :: ds)), (length ds), (if xneg then - val xs else val xs).
  split; [reflexivity|]. split; [|split; [|split; [auto|split]]].
  - constructor; auto. intros ->. cbn [length] in T3. lia.
  - apply fin_ok; [|discriminate]. cbn [hd_error]. inversion T2; subst. unfold is_digit in *. intros H. injection H. lia.
  - intros N. destruct (C5 N) as [M0 E0]. split; [|exact E0]. rewrite M0 in T4.
    assert (0 < 10 ^ (d - 1 - Z.of_nat (length ds))); [|nia].
    apply Z.pow_pos_nonneg; lia.
  - intros N H. specialize (C6 N H). set (e := if xneg then - val xs else val xs) in *.
    replace (IZR (val (d0 :: ds)) * p10 (e - Z.of_nat (length ds)))%R with (IZR m * p10 (e + 1 - d))%R; [exact C6|].
    rewrite T4, mult_IZR, <- (p10_Z (d - 1 - Z.of_nat (length ds))) by lia. rewrite Rmult_assoc, <- bpow_plus. do 2 f_equal. lia.
Qed.
