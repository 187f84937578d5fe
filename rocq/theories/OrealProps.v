(** C90: the text of a real number is a number in exponential form close to it. *)
From Coq Require Import Reals Lra String.
From Verif Require Import Base OrealModel OrealSpec OrealProofs OrealText.
From Flocq Require Import Core IEEE754.BinarySingleNaN.
Local Open Scope Z_scope.

(** What is written for a finite number, whatever the field width, is a number in exponential form with its sign, adjusted to the right. *)
Theorem C90_form : forall (x : dbl) n, is_finite x = true -> -32000 <= n <= 32767 ->
  (exists t M k e, LongReal x n = Ok t /\ exponential 68 3 t (Bsign x) M k e /\ adjusted t n /\ (1 <= k <= 16)%nat) /\
  ((B2R x = 0 \/ bpow radix2 (-149) <= Rabs (B2R x) < bpow radix2 128)%R ->
   exists t M k e, Real x n = Ok t /\ exponential 69 2 t (Bsign x) M k e /\ adjusted t n /\ (1 <= k <= 16)%nat).
Proof.
  intros x n F _. split.
  - destruct (RealP_ok x n true F (or_introl eq_refl)) as (t & M & k & e & A & B & C & D & _). exists t, M, k, e. auto.
  - intros S. destruct (RealP_ok x n false F (or_intror S)) as (t & M & k & e & A & B & C & D & _). exists t, M, k, e. auto.
Qed.

(** Zero is written as zero. *)
Theorem C90_zero : forall (x : dbl) n, is_finite x = true -> -32000 <= n <= 32767 -> B2R x = 0%R ->
  (exists t k, LongReal x n = Ok t /\ exponential 68 3 t (Bsign x) 0 k 0) /\ (exists t k, Real x n = Ok t /\ exponential 69 2 t (Bsign x) 0 k 0).
Proof.
  intros x n F _ Z. pose proof (bpow_gt_0 radix2 (-1022)) as P. split.
  - destruct (RealP_ok x n true F (or_introl eq_refl)) as (t & M & k & e & A & B & _ & _ & D & _). rewrite Z, Rabs_R0 in D. destruct (D P). subst. exists t, k. auto.
  - destruct (RealP_ok x n false F (or_intror (or_introl Z))) as (t & M & k & e & A & B & _ & _ & D & _). rewrite Z, Rabs_R0 in D. destruct (D P). subst. exists t, k. auto.
Qed.

(** Infinity and what is no number are named. *)
Theorem C90_special : forall n, -32000 <= n <= 32767 -> forall s,
  Real B754_nan n = Ok (repeat 32 (Z.to_nat (n - 3)) ++ text "NaN"%string) /\ LongReal B754_nan n = Ok (repeat 32 (Z.to_nat (n - 3)) ++ text "NaN"%string) /\
  (let t := if s : bool then text "-Infinity"%string else text "Infinity"%string in
   Real (B754_infinity s) n = Ok (repeat 32 (Z.to_nat (n - Z.of_nat (List.length t))) ++ t) /\ LongReal (B754_infinity s) n = Ok (repeat 32 (Z.to_nat (n - Z.of_nat (List.length t))) ++ t)).
Proof.
  intros n _ s. split; [reflexivity|]. split; [reflexivity|].
  destruct s; split; unfold Real, LongReal, RealP; cbn [Bsign is_nan negb andb field Z.eqb Pos.eqb bind]; try reflexivity; f_equal; apply f_equal2; try reflexivity;
    do 2 f_equal; cbn [List.length text]; lia.
Qed.

(** The number written differs from a normal one by half a unit of the last digit computed and one part in 2^42.  It is claimed only for numbers that keep
    off the next power of ten. *)
Theorem C90_accuracy_partial : forall (x : dbl) n (long : bool), is_finite x = true -> -32000 <= n <= 32767 -> (bpow radix2 (-1022) <= Rabs (B2R x))%R ->
  (long = false -> bpow radix2 (-149) <= Rabs (B2R x) < bpow radix2 128)%R ->
  let d := precision long (Bsign x) n in
  exists t M k e, (if long then LongReal x n else Real x n) = Ok t /\ exponential (if long then 68 else 69) (if long then 3%nat else 2%nat) t (Bsign x) M k e /\
    (Rabs (B2R x) * (1 + / 2 ^ 41) + bpow radix10 (e + 1 - d) < bpow radix10 (e + 1) ->
     Rabs (IZR M * bpow radix10 (e - Z.of_nat k) - Rabs (B2R x)) <= 1 / 2 * bpow radix10 (e + 1 - d) + / 2 ^ 42 * Rabs (B2R x))%R.
Proof.
  intros x n long F _ N S d.
  destruct (RealP_ok x n long F) as (t & M & k & e & A & B & _ & _ & _ & D).
  { destruct long; [now left|right; right; now apply S]. }
  exists t, M, k, e. split; [destruct long; exact A|]. split; [exact B|].
  intros H. fold d in D. replace (/ 2 ^ 41)%R with (1 / 2199023255552)%R in H by (simpl; lra). replace (/ 2 ^ 42)%R with (1 / 4398046511104)%R by (simpl; lra). now apply D.
Qed.

(** Near a power of ten the number written may be ten times too small: 10 - 2^-21 is written as 1. *)
Theorem C90_exponent_refuted : exists x : dbl, is_finite x = true /\ (99 / 10 < B2R x < 10)%R /\ Real x 0 = Ok (text "1.0E+00"%string).
Proof.
  exists (dint (10 * 2 ^ 21 - 1) (-21)).
  assert (E : B2SF (dint (10 * 2 ^ 21 - 1) (-21)) = SpecFloat.S754_finite false 5629499265777664 (-49)) by (vm_compute; reflexivity).
  destruct (B2R_SF _ _ _ E) as [F V]. split; [exact F|]. split; [rewrite V; simpl (bpow radix2 _); lra|]. vm_compute. reflexivity.
Qed.
(** The digit before the point may be zero although the number is not: 2^-1000. *)
Theorem C90_leading_refuted : exists (x : dbl) t ds, is_finite x = true /\ B2R x = bpow radix2 (-1000) /\ LongReal x 0 = Ok t /\ t = 48 :: 46 :: ds.
Proof.
  assert (E : B2SF (dint 1 (-1000)) = SpecFloat.S754_finite false 4503599627370496 (-1052)) by (vm_compute; reflexivity).
  destruct (B2R_SF _ _ _ E) as [F V].
  exists (dint 1 (-1000)), (text "0.93326361850322D-301"%string), (text "93326361850322D-301"%string). split; [exact F|]. split; [|split; [vm_compute; reflexivity|reflexivity]].
  rewrite V. replace (IZR 4503599627370496) with (bpow radix2 52) by (simpl; lra). now rewrite <- bpow_plus.
Qed.
(** A number below the normal ones is written as zero. *)
Theorem C90_denormal_refuted : exists x : dbl, is_finite x = true /\ (0 < B2R x)%R /\ LongReal x 0 = Ok (text "0.0D+000"%string).
Proof.
  assert (E : B2SF (dint 1 (-1074)) = SpecFloat.S754_finite false 1 (-1074)) by (vm_compute; reflexivity).
  destruct (B2R_SF _ _ _ E) as [F V]. exists (dint 1 (-1074)). split; [exact F|]. split; [|vm_compute; reflexivity].
  rewrite V, Rmult_1_l. apply bpow_gt_0.
Qed.

(** Some numbers, and a case that meets the condition of the accuracy theorem. *)
Example C90_met : LongReal (dint 1 0) 0 = Ok (text "1.0D+000"%string) /\ Real (dint (-3) (-1)) 13 = Ok (text "-1.500000E+00"%string) /\
  (1 * (1 + / 2 ^ 41) + bpow radix10 (0 + 1 - 15) < bpow radix10 (0 + 1))%R.
Proof. split; [vm_compute; reflexivity|]. split; [vm_compute; reflexivity|]. simpl. lra. Qed.
Print Assumptions C90_form.
Print Assumptions C90_zero.
Print Assumptions C90_special.
Print Assumptions C90_accuracy_partial.
Print Assumptions C90_exponent_refuted.
Print Assumptions C90_leading_refuted.
Print Assumptions C90_denormal_refuted.
