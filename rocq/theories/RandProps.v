(** C79: random numbers. *)
From Coq Require Import SpecFloat Znumtheory Zpow_facts.
From Verif Require Import Base RandModel.

Definition m : Z := 2147483647.
Definition valid (z : Z) : Prop := 1 <= z <= m - 1.

(** * One step *)
Ltac Zify.zify_post_hook ::= Z.to_euclidean_division_equations.
Lemma schrage : forall z, valid z ->
  let t := 16807 * (z mod 127773) - 2836 * (z / 127773) in
  - 2147483647 < t < 2147483647 /\ (if t >? 0 then t else t + m) mod m = (16807 * z) mod m /\ 0 <= (if t >? 0 then t else t + m) <= m.
Proof.
  intros z [H1 H2] t. unfold m in *.
  assert (t = 16807 * z - 2147483647 * (z / 127773)) as E by (unfold t; lia).
  assert (- 2147483647 < t < 2147483647) as R by (unfold t; lia). split; [exact R|]. split.
  - destruct (t >? 0).
    + rewrite E. replace (16807 * z - 2147483647 * (z / 127773)) with (16807 * z + (- (z / 127773)) * 2147483647) by ring. apply Z.mod_add. lia.
    + rewrite E. replace (16807 * z - 2147483647 * (z / 127773) + 2147483647) with (16807 * z + (1 - z / 127773) * 2147483647) by ring. apply Z.mod_add. lia.
  - destruct (t >? 0) eqn:G; lia.
Qed.
Ltac Zify.zify_post_hook ::= idtac.
Lemma coprime_step : forall z, valid z -> (16807 * z) mod m <> 0.
Proof.
  intros z [H1 H2] E. apply Z.mod_divide in E; [|unfold m; lia].
  apply Gauss in E; [|apply Zgcd_1_rel_prime; reflexivity]. apply Z.divide_pos_le in E; [|lia]. lia.
Qed.

(** The generator multiplies by 16807 modulo 2^31 - 1, without overflow, and never leaves the numbers 1 .. 2^31 - 2. *)
Theorem C79_step : forall z, valid z -> NextRND z = Ok ((16807 * z) mod m) /\ valid ((16807 * z) mod m).
Proof.
  intros z V. destruct (schrage z V) as (R & E & B). cbv zeta in *. pose proof (coprime_step z V) as N.
  assert (0 <= (16807 * z) mod m < m) as RM by (apply Z.mod_pos_bound; unfold m; lia).
  split; [|unfold valid; lia]. unfold NextRND. destruct V as [V1 V2]. unfold m in V2.
  assert (0 <= z mod 127773 < 127773) by (apply Z.mod_pos_bound; lia).
  assert (0 <= z / 127773 < 16808) by (split; [apply Z.div_pos; lia|apply Z.div_lt_upper_bound; lia]).
  rewrite chk_ok by (apply in_int32; lia). rewrite bind_ok.
  rewrite chk_ok by (apply in_int32; lia). rewrite bind_ok.
  rewrite chk_ok by (apply in_int32; lia). rewrite bind_ok.
  set (t := 16807 * (z mod 127773) - 2836 * (z / 127773)) in *.
  rewrite <- E. destruct (t >? 0) eqn:G.
  - f_equal. symmetry. apply Z.mod_small. unfold m in *. lia.
  - unfold modulo. fold m. rewrite chk_ok by (apply in_int32; unfold m in *; lia). f_equal. symmetry. apply Z.mod_small.
    assert (t + m <> m). { intro X. rewrite X in E. rewrite Z.mod_same in E by (unfold m; lia). congruence. }
    unfold m in *. lia.
Qed.
Print Assumptions C79_step.

(** * Seeds and histories *)
Theorem C79_seed : forall seed, in_int 32 seed -> valid (PutSeed seed) /\ (valid seed -> PutSeed seed = seed).
Proof.
  intros seed H. unfold PutSeed, valid. change modulo with m.
  assert (0 <= seed mod m < m) by (apply Z.mod_pos_bound; unfold m; lia). split.
  - destruct (seed mod m =? 0) eqn:E; unfold m in *; lia.
  - intros V. rewrite Z.mod_small by lia. replace (seed =? 0) with false by lia. reflexivity.
Qed.
Print Assumptions C79_seed.

(** A program may set seeds and draw numbers in any order; the module starts with z = 1 (line 74). *)
Inductive op := OPut (seed : Z) | ORnd (range : Z) | ORandom.
Definition ok_op (o : op) : Prop := match o with OPut s => in_int 32 s | ORnd r => 1 <= r <= m - 1 | ORandom => True end.
Fixpoint perform (z : Z) (l : list op) : res (Z * list Z) :=
  match l with
  | [] => Ok (z, [])
  | OPut s :: l => perform (PutSeed s) l
  | ORnd r :: l => let* (z, x) := RND z r in let* (z, xs) := perform z l in Ok (z, x :: xs)
  | ORandom :: l => let* (z, _) := Random z in perform z l
  end.
(** The numbers drawn, by the definition of the generator. *)
Fixpoint numbers (z : Z) (l : list op) : list Z :=
  match l with
  | [] => []
  | OPut s :: l => numbers (PutSeed s) l
  | ORnd r :: l => let z := (16807 * z) mod m in z mod r :: numbers z l
  | ORandom :: l => numbers ((16807 * z) mod m) l
  end.
Fixpoint ranges (l : list op) : list Z := match l with [] => [] | ORnd r :: l => r :: ranges l | _ :: l => ranges l end.
Theorem C79_history : forall l z, Forall ok_op l -> valid z ->
  exists z', perform z l = Ok (z', numbers z l) /\ valid z' /\ Forall2 (fun x r => 0 <= x < r) (numbers z l) (ranges l).
Proof.
  induction l as [|o l IH]; intros z F V; [exists z; split; [reflexivity|]; split; [exact V|constructor]|].
  apply Forall_cons_iff in F. destruct F as [Ho F]. destruct o as [s|r|]; cbn [perform numbers ok_op ranges] in *.
  - apply IH; auto. apply C79_seed; auto.
  - destruct (C79_step z V) as [E V']. unfold RND. rewrite E, !bind_ok. destruct (IH _ F V') as (z' & -> & V2 & R).
    rewrite bind_ok. exists z'. split; [reflexivity|]. split; auto. constructor; auto. apply Z.mod_pos_bound. lia.
  - destruct (C79_step z V) as [E V']. unfold Random. rewrite E, bind_ok.
    rewrite chk_ok by (apply in_int32; unfold valid in V'; unfold m in *; lia). rewrite !bind_ok. apply IH; auto.
Qed.
Print Assumptions C79_history.

(** * The period *)
Definition g : Z := 16807.
Definition M : Z := 2147483646.
Fixpoint iterate (n : nat) (z : Z) : Z := match n with O => z | S n => iterate n ((16807 * z) mod m) end.
Lemma iterate_pow : forall n z, iterate n z mod m = (g ^ Z.of_nat n * z) mod m.
Proof.
  induction n as [|n IH]; intro z; cbn [iterate].
  - change (g ^ Z.of_nat 0) with 1. f_equal. ring.
  - rewrite IH. rewrite Z.mul_mod_idemp_r by (unfold m; lia). f_equal.
    rewrite Nat2Z.inj_succ, Z.pow_succ_r by lia. unfold g. ring.
Qed.
Lemma iterate_valid : forall n z, valid z -> valid (iterate n z).
Proof. induction n as [|n IH]; intros z V; cbn [iterate]; auto. apply IH, C79_step, V. Qed.
Lemma valid_mod : forall z, valid z -> z mod m = z.
Proof. intros z V. unfold valid, m in *. apply Z.mod_small. lia. Qed.
Lemma iterate_eq : forall n z, valid z -> iterate n z = (g ^ Z.of_nat n * z) mod m.
Proof. intros n z V. rewrite <- iterate_pow. symmetry. apply valid_mod, iterate_valid, V. Qed.

Lemma pow_full : g ^ M mod m = 1.
Proof. rewrite <- Zpow_mod_correct by (unfold m, M; lia). vm_compute. reflexivity. Qed.
Definition factors : list Z := [2; 3; 3; 7; 11; 31; 151; 331].
Lemma pow_parts : forall p, In p factors -> g ^ (M / p) mod m <> 1.
Proof.
  intros p H. rewrite <- Zpow_mod_correct.
  - cbn in H. repeat (destruct H as [<- | H]; [vm_compute; discriminate|]). destruct H.
  - unfold m; lia.
Qed.
(** Each factor is 1 or all of itself to any number. *)
Definition remainders (p : Z) : list Z := map Z.of_nat (seq 0 (Z.to_nat p)).
Lemma factor_check : forallb (fun p => forallb (fun r => (Z.gcd r p =? 1) || (r =? 0)) (remainders p)) factors = true.
Proof. vm_compute. reflexivity. Qed.
Lemma factor_gcd : forall p e, In p factors -> Z.gcd e p = 1 \/ (p | e).
Proof.
  intros p e H. pose proof factor_check as C. rewrite forallb_forall in C. specialize (C p H). rewrite forallb_forall in C.
  assert (0 < p) as P by (cbn in H; lia). assert (0 <= e mod p < p) as R by (apply Z.mod_pos_bound; lia).
  specialize (C (e mod p)). rewrite orb_true_iff in C.
  assert (In (e mod p) (remainders p)) as I by (apply in_map_iff; exists (Z.to_nat (e mod p)); split; [lia|apply in_seq; lia]).
  destruct (C I) as [G|Z0].
  - left. apply Z.eqb_eq in G. rewrite Z.gcd_mod in G by lia. rewrite Z.gcd_comm. exact G.
  - right. apply Z.eqb_eq in Z0. apply Z.mod_divide; [lia|auto].
Qed.
Lemma factor_of : forall e, 1 < e -> (e | M) -> exists p, In p factors /\ (p | e).
Proof.
  intros e He D.
  destruct (factor_gcd 2 e ltac:(cbn; tauto)) as [G2|G]; [|exists 2; split; [cbn; tauto|auto]].
  destruct (factor_gcd 3 e ltac:(cbn; tauto)) as [G3|G]; [|exists 3; split; [cbn; tauto|auto]].
  destruct (factor_gcd 7 e ltac:(cbn; tauto)) as [G7|G]; [|exists 7; split; [cbn; tauto|auto]].
  destruct (factor_gcd 11 e ltac:(cbn; tauto)) as [G11|G]; [|exists 11; split; [cbn; tauto|auto]].
  destruct (factor_gcd 31 e ltac:(cbn; tauto)) as [G31|G]; [|exists 31; split; [cbn; tauto|auto]].
  destruct (factor_gcd 151 e ltac:(cbn; tauto)) as [G151|G]; [|exists 151; split; [cbn; tauto|auto]].
  destruct (factor_gcd 331 e ltac:(cbn; tauto)) as [G331|G]; [|exists 331; split; [cbn; tauto|auto]].
  exfalso. assert (rel_prime e M) as RP.
  { replace M with (2 * (3 * (3 * (7 * (11 * (31 * (151 * 331))))))) by reflexivity.
    repeat apply rel_prime_mult; apply Zgcd_1_rel_prime; auto. }
  apply Zgcd_1_rel_prime in RP. assert ((e | 1)) as D1 by (rewrite <- RP; apply Z.gcd_greatest; auto; apply Z.divide_refl).
  apply Z.divide_pos_le in D1; lia.
Qed.
Lemma pow_mul_one : forall d k, 0 <= d -> 0 <= k -> g ^ d mod m = 1 -> g ^ (d * k) mod m = 1.
Proof.
  intros d k Hd Hk E. rewrite Z.pow_mul_r by lia. rewrite Zpower_mod by (unfold m; lia). rewrite E, Z.pow_1_l by lia. reflexivity.
Qed.
Lemma rel_g : forall n, 0 <= n -> rel_prime m (g ^ n).
Proof. intros n H. apply rel_prime_Zpower_r; auto. apply Zgcd_1_rel_prime. reflexivity. Qed.
Lemma cancel : forall a b, 0 <= a -> 0 <= b -> g ^ (a + b) mod m = g ^ a mod m -> g ^ b mod m = 1.
Proof.
  intros a b Ha Hb E. rewrite Z.pow_add_r in E by lia.
  assert ((m | g ^ a * (g ^ b - 1))) as D.
  { apply Z.mod_divide; [unfold m; lia|]. replace (g ^ a * (g ^ b - 1)) with (g ^ a * g ^ b - g ^ a) by ring.
    rewrite Zminus_mod, E, Z.sub_diag. reflexivity. }
  apply Gauss in D; [|apply rel_g; auto]. destruct D as [k D].
  replace (g ^ b) with (1 + k * m) by lia. rewrite Z.mod_add by (unfold m; lia). reflexivity.
Qed.
(** Exponents with value 1 are closed under the greatest common divisor with M. *)
Lemma gcd_one : forall k, 0 < k -> g ^ k mod m = 1 -> g ^ (Z.gcd k M) mod m = 1.
Proof.
  intros k Hk E. destruct (Z.gcd_bezout k M (Z.gcd k M) eq_refl) as (u & v & B).
  set (d := Z.gcd k M) in *. assert (0 <= d) by apply Z.gcd_nonneg.
  (* add multiples of M so that the coefficient of k is not negative, and the other not positive *)
  set (w := Z.abs u + Z.abs v).
  assert (d + M * (k * w - v) = k * (u + M * w)) as B2 by lia.
  assert (0 <= u + M * w) as P1 by (unfold w, M; lia).
  assert (0 <= k * w - v) as P2. { assert (1 * w <= k * w) by (apply Z.mul_le_mono_nonneg_r; unfold w; lia). unfold w in *. lia. }
  apply (cancel (M * (k * w - v)) d); [apply Z.mul_nonneg_nonneg; [unfold M; lia|auto]|auto|].
  rewrite Z.add_comm, B2. rewrite (pow_mul_one k); [|lia|exact P1|exact E]. rewrite (pow_mul_one M); [reflexivity|unfold M; lia|exact P2|exact pow_full].
Qed.
Lemma order : forall k, 0 < k < M -> g ^ k mod m <> 1.
Proof.
  intros k Hk E. pose proof (gcd_one k ltac:(lia) E) as G. set (d := Z.gcd k M) in *.
  assert ((d | M)) as [e De] by apply Z.gcd_divide_r. assert ((d | k)) as Dk by apply Z.gcd_divide_l.
  assert (0 <= d) as D0 by apply Z.gcd_nonneg. assert (d <= k) as DL by (apply Z.divide_pos_le; [lia|auto]).
  assert (d <> 0) as DN by (intro X; rewrite X, Z.mul_0_r in De; unfold M in De; lia).
  assert (1 < e) as He.
  { destruct (Z_lt_ge_dec 1 e); auto. assert (e * d <= 1 * d) by (apply Z.mul_le_mono_nonneg_r; lia). lia. }
  destruct (factor_of e He) as (p & Hp & [q Eq]); [exists d; rewrite De; ring|].
  apply (pow_parts p Hp). assert (0 < p) as PP by (cbn in Hp; lia).
  replace (M / p) with (d * q).
  2:{ rewrite De, Eq. replace (q * p * d) with (d * q * p) by ring. symmetry. apply Z.div_mul. lia. }
  apply pow_mul_one; auto. destruct (Z_lt_ge_dec q 0); [|lia]. assert (q * p <= -1 * p) by (apply Z.mul_le_mono_nonneg_r; lia). lia.
Qed.
Lemma powers_differ : forall i j, 0 <= i < M -> 0 <= j < M -> g ^ i mod m = g ^ j mod m -> i = j.
Proof.
  assert (forall i j, 0 <= i < j -> j < M -> g ^ i mod m <> g ^ j mod m) as W.
  { intros i j H H2 E. apply (order (j - i)); [lia|]. apply (cancel i); try lia. replace (i + (j - i)) with j by ring. auto. }
  intros i j Hi Hj E. destruct (Z.lt_trichotomy i j) as [L|[L|L]]; auto; exfalso; [apply (W i j)|apply (W j i)]; auto; lia.
Qed.
Lemma pigeon : forall (N : nat) (f : nat -> Z), (forall i, (i < N)%nat -> 1 <= f i <= Z.of_nat N) ->
  (forall i j, (i < N)%nat -> (j < N)%nat -> f i = f j -> i = j) ->
  forall y, 1 <= y <= Z.of_nat N -> exists i, (i < N)%nat /\ f i = y.
Proof.
  intros N f R I y Hy. set (l := map f (seq 0 N)). set (k := map Z.of_nat (seq 1 N)).
  assert (NoDup l) as ND.
  { unfold l. assert (forall s, NoDup s -> (forall i, In i s -> (i < N)%nat) -> NoDup (map f s)) as X.
    { induction s as [|x s IH]; intros ND H; [constructor|]. inversion ND; subst. cbn [map]. constructor.
      - intro C. apply in_map_iff in C. destruct C as (x' & E & C). apply I in E; [subst; auto|apply H; right; auto|apply H; left; auto].
      - apply IH; auto. intros i Hi. apply H. right. auto. }
    apply X; [apply seq_NoDup|]. intros i Hi. apply in_seq in Hi. lia. }
  assert (incl l k) as Inc.
  { intros z Hz. unfold l in Hz. apply in_map_iff in Hz. destruct Hz as (i & <- & Hi). apply in_seq in Hi. specialize (R i ltac:(lia)).
    apply in_map_iff. exists (Z.to_nat (f i)). split; [lia|]. apply in_seq. lia. }
  assert (incl k l) as Inc2. { apply NoDup_length_incl; auto. unfold l, k. rewrite !map_length, !seq_length. lia. }
  assert (In y k) as Iy by (apply in_map_iff; exists (Z.to_nat y); split; [lia|apply in_seq; lia]).
  apply Inc2 in Iy. apply in_map_iff in Iy. destruct Iy as (i & E & Hi). apply in_seq in Hi. exists i. split; [lia|auto].
Qed.
Lemma all_powers : forall y, valid y -> exists i, 0 <= i < M /\ g ^ i mod m = y.
Proof.
  intros y V. assert (Z.of_nat (Z.to_nat M) = M) as EN by (apply Z2Nat.id; unfold M; lia).
  destruct (pigeon (Z.to_nat M) (fun i => g ^ Z.of_nat i mod m)) with (y := y) as (i & Hi & E).
  - intros i Hi. rewrite EN. assert (0 <= g ^ Z.of_nat i mod m < m) by (apply Z.mod_pos_bound; unfold m; lia).
    assert (g ^ Z.of_nat i mod m <> 0). { intro X. apply Z.mod_divide in X; [|unfold m; lia].
      pose proof (rel_g (Z.of_nat i) ltac:(lia)) as RP. apply Zgcd_1_rel_prime in RP.
      assert ((m | 1)) as D1 by (rewrite <- RP; apply Z.gcd_greatest; auto; apply Z.divide_refl). apply Z.divide_pos_le in D1; unfold m in *; lia. }
    unfold m, M in *. lia.
  - intros i j Hi Hj E. apply powers_differ in E; lia.
  - rewrite EN. unfold valid, m, M in *. lia.
  - exists (Z.of_nat i). split; [lia|exact E].
Qed.

(** From every seed the generator runs through all numbers 1 .. 2^31 - 2, each exactly once, before it starts again. *)
Theorem C79_period : forall z, valid z ->
  iterate (Z.to_nat M) z = z /\
  (forall y, valid y -> exists n, 0 <= n < M /\ iterate (Z.to_nat n) z = y /\ forall k, 0 <= k < M -> iterate (Z.to_nat k) z = y -> k = n).
Proof.
  intros z V. split.
  - rewrite iterate_eq by auto. rewrite Z2Nat.id by (unfold M; lia). rewrite Z.mul_mod, pow_full, (valid_mod z V) by (unfold m; lia).
    rewrite Z.mul_1_l. apply valid_mod, V.
  - intros y Vy. destruct (all_powers z V) as (a & Ha & Ea). destruct (all_powers y Vy) as (b & Hb & Eb).
    assert (forall n, 0 <= n -> iterate (Z.to_nat n) z = g ^ (a + n) mod m) as IT.
    { intros n Hn. rewrite iterate_eq by auto. rewrite Z2Nat.id by auto. rewrite <- Ea, Z.mul_mod_idemp_r by (unfold m; lia).
      rewrite Z.pow_add_r by lia. f_equal. ring. }
    assert (forall k, 0 <= k -> g ^ (k + M) mod m = g ^ k mod m) as PM.
    { intros k Hk. rewrite Z.pow_add_r by (unfold M; lia). rewrite Z.mul_mod, pow_full, Z.mul_1_r, Z.mod_mod by (unfold m; lia). reflexivity. }
    assert (exists n, 0 <= n < M /\ g ^ (a + n) mod m = y) as (n & Hn & En).
    { destruct (Z_lt_ge_dec b a) as [L|G].
      - exists (b - a + M). split; [clear - Ha Hb L; lia|]. replace (a + (b - a + M)) with (b + M) by (generalize M; intro; ring). rewrite PM; [exact Eb|clear - Hb; lia].
      - exists (b - a). split; [clear - Ha Hb G; lia|]. replace (a + (b - a)) with b by ring. exact Eb. }
    exists n. split; auto. split; [rewrite IT by lia; auto|]. intros k Hk E. rewrite IT in E by lia. rewrite <- E in En. clear E.
    assert (forall x w, 0 <= x < w -> w < M -> g ^ (a + x) mod m <> g ^ (a + w) mod m) as W.
    { intros x w H H2 E. apply (order (w - x)); [clear - H H2; lia|]. apply (cancel (a + x)); [clear - Ha H; lia|clear - H; lia|].
      replace (a + x + (w - x)) with (a + w) by ring. symmetry. exact E. }
    destruct (Z.lt_trichotomy k n) as [L|[L|L]]; [exfalso|exact L|exfalso].
    + apply (W k n); [clear - L Hk; lia|clear - Hn; lia|symmetry; exact En].
    + apply (W n k); [clear - L Hn; lia|clear - Hk; lia|exact En].
Qed.
Print Assumptions C79_period.

(** * Real numbers *)
Definition one : spec_float := single 1.
(** "x < 1.0" (oocRandomNumbers.Mod 60) fails for some seeds. *)
Theorem C79_random_refuted : exists z z' x, valid z /\ Random z = Ok (z', x) /\ SFcompare x one = Some Eq.
Proof. exists 739806647, 2147483646, (S754_finite false 8388608 (-23)). split; [unfold valid, m; lia|]. split; vm_compute; reflexivity. Qed.
Print Assumptions C79_random_refuted.
(** "0 < r < 1" (ethRandomNumbers.Mod 10): the same, and the seed 0 gives 1 for ever; a negative seed may overflow. *)
Theorem C79_uniform_refuted : 
  (exists z z' x, valid z /\ Uniform z = Ok (z', x) /\ SFcompare x one = Some Eq) /\
  (exists x, Uniform (InitSeed 0) = Ok (m, x) /\ Uniform m = Ok (m, x) /\ SFcompare x one = Some Eq) /\
  Uniform (InitSeed (-2044368001)) = UB.
Proof.
  split; [exists 739806647, 2147483646, (S754_finite false 8388608 (-23)); split; [unfold valid, m; lia|]; split; vm_compute; reflexivity|].
  split; [exists (S754_finite false 8388608 (-23)); split; [vm_compute; reflexivity|]; split; vm_compute; reflexivity|]. vm_compute. reflexivity.
Qed.
Print Assumptions C79_uniform_refuted.
(** From a seed in range the generator of the eth library makes the same steps as that of the ooc library. *)
Theorem C79_uniform_step : forall z, valid z -> exists x, Uniform z = Ok ((16807 * z) mod m, x).
Proof.
  intros z V. destruct (C79_step z V) as [E _]. unfold NextRND in E. unfold Uniform.
  change (modulo / 16807) with 127773. change (modulo mod 16807) with 2836.
  destruct (chk 32 (16807 * (z mod 127773))); cbn [bind] in *; try discriminate E.
  destruct (chk 32 (2836 * (z / 127773))); cbn [bind] in *; try discriminate E.
  destruct (chk 32 (a - a0)); cbn [bind] in *; try discriminate E.
  rewrite E, bind_ok. eexists. reflexivity.
Qed.
Print Assumptions C79_uniform_step.

(** The check of Park and Miller: the 10000th number after 1 is 1043618065; and a draw. *)
Example park_miller : iterate (Z.to_nat 10000) 1 = 1043618065.
Proof. vm_compute. reflexivity. Qed.
Example draws : perform 1 [OPut (-5); ORnd 6; ORandom; ORnd 100] = Ok (476684223, [2; 23]).
Proof. vm_compute. reflexivity. Qed.
