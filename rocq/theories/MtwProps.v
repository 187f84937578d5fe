(** C99: the numbers of the module MersenneTwister. *)
From Verif Require Import Base ArrZ MtwModel MtwSpec.

Lemma bok : forall A B (a : A) (k : A -> res B), bind (Ok a) k = k a. Proof. reflexivity. Qed.
Lemma ux : forall y, word y -> wrap_u 32 (wrap_s 32 y) = y.
Proof. intros y H. unfold word in H. unfold wrap_u, wrap_s. change (2 ^ (32 - 1)) with 2147483648. change (2 ^ 32) with 4294967296 in *. lia. Qed.
Lemma us : forall y, wrap_u 32 (wrap_s 32 y) = y mod 2 ^ 32.
Proof. intros y. unfold wrap_u, wrap_s. change (2 ^ (32 - 1)) with 2147483648. change (2 ^ 32) with 4294967296 in *. lia. Qed.
Lemma word_of : forall y, word y <-> y = y mod 2 ^ 32.
Proof. intros y. unfold word. change (2 ^ 32) with 4294967296. lia. Qed.
Lemma bits : forall y, word y <-> forall n, 0 <= n -> Z.testbit y n = (n <? 32) && Z.testbit y n.
Proof.
  intros y. rewrite word_of, <- Z.land_ones by lia. split.
  - intros E n N. rewrite E at 1. rewrite Z.land_spec, Z.testbit_ones by lia. destruct (Z.testbit y n), (n <? 32) eqn:Q; lia.
  - intros H. apply Z.bits_inj'. intros n N. rewrite Z.land_spec, Z.testbit_ones, H by lia. destruct (Z.testbit y n), (n <? 32) eqn:Q; lia.
Qed.
Lemma lxor_w : forall a b, word a -> word b -> word (Z.lxor a b).
Proof. intros a b A B. rewrite bits in *. intros n N. rewrite Z.lxor_spec, (A n N), (B n N). destruct (n <? 32); reflexivity. Qed.
Lemma land_w : forall a b, word a -> word (Z.land a b).
Proof. intros a b A. rewrite bits in *. intros n N. rewrite Z.land_spec, (A n N). destruct (n <? 32); reflexivity. Qed.
Lemma div_w : forall a n, 0 <= n -> word a -> word (a / 2 ^ n).
Proof. intros a n N (A & B). split; [apply Z.div_pos; [exact A|apply Z.pow_pos_nonneg; lia]|]. apply Z.le_lt_trans with a; [|exact B]. apply Z.div_le_upper_bound; [apply Z.pow_pos_nonneg; lia|]. pose proof (Z.pow_pos_nonneg 2 n ltac:(lia) N). nia. Qed.
Lemma mod_w : forall a, word (a mod 2 ^ 32). Proof. intros a. apply Z.mod_pos_bound. reflexivity. Qed.
Lemma lsr : forall y n, 0 < n -> word y -> toSet (Lsh (toInt y) (- n)) = y / 2 ^ n.
Proof.
  intros y n N W. unfold toSet, Lsh, toInt. replace (0 <=? - n) with false by lia. rewrite (ux y W). rewrite Z.opp_involutive, Z.shiftr_div_pow2 by lia. apply ux. apply div_w; [lia|exact W].
Qed.
Lemma lsl : forall y n, 0 <= n -> word y -> toSet (Lsh (toInt y) n) = y * 2 ^ n mod 2 ^ 32.
Proof. intros y n N W. unfold toSet, Lsh, toInt. replace (0 <=? n) with true by lia. rewrite (ux y W). rewrite Z.shiftl_mul_pow2 by lia. apply us. Qed.
Lemma join : forall a b, word a -> word b -> Z.lor (Z.land a UPPERMASK) (Z.land b LOWERMASK) = 2 ^ 31 * (a / 2 ^ 31) + b mod 2 ^ 31.
Proof.
  intros a b A B. change LOWERMASK with (Z.ones 31). rewrite Z.land_ones by lia.
  assert (E : Z.land a UPPERMASK = 2 ^ 31 * (a / 2 ^ 31)).
  { rewrite Z.mul_comm, <- Z.shiftr_div_pow2, <- Z.shiftl_mul_pow2 by lia. change UPPERMASK with (2 ^ 31). apply Z.bits_inj'. intros n N. rewrite Z.land_spec, Z.pow2_bits_eqb by lia.
    destruct (31 =? n) eqn:Q; [|rewrite andb_false_r].
    - replace n with 31 by lia. rewrite andb_true_r, Z.shiftl_spec, Z.shiftr_spec by lia. reflexivity.
    - destruct (Z_lt_le_dec n 31); [rewrite Z.shiftl_spec_low by lia; reflexivity|]. rewrite Z.shiftl_spec, Z.shiftr_spec by lia. replace (n - 31 + 31) with n by lia. rewrite bits in A. rewrite A by lia. replace (n <? 32) with false by lia. reflexivity. }
  rewrite E. rewrite <- Z.lxor_lor, <- Z.add_nocarry_lxor; auto.
  all: apply Z.bits_inj'; intros n N; rewrite Z.land_spec, Z.bits_0, Z.mul_comm; destruct (Z_lt_le_dec n 31); [rewrite Z.mul_pow2_bits_low by lia; reflexivity|rewrite Z.mod_pow2_bits_high by lia; apply andb_false_r].
Qed.
Lemma join_w : forall a b, word a -> word b -> word (2 ^ 31 * (a / 2 ^ 31) + b mod 2 ^ 31).
Proof. intros a b A B. unfold word in *. change (2 ^ 31) with 2147483648. change (2 ^ 32) with 4294967296 in *. lia. Qed.
Lemma twist_w : forall a b c, word a -> word b -> word c -> word (twist a b c).
Proof.
  intros a b c A B C. unfold twist. apply lxor_w; [apply lxor_w; [exact C|]|destruct (Z.odd _); unfold word; lia]. apply (div_w _ 1); [lia|]. apply join_w; assumption.
Qed.
Lemma mix_ok : forall a b c, word a -> word b -> word c -> mix a b c = Ok (twist a b c).
Proof.
  intros a b c A B C. unfold mix, twist. rewrite join by assumption. pose proof (join_w a b A B) as W. revert W. generalize (2 ^ 31 * (a / 2 ^ 31) + b mod 2 ^ 31). intros y W.
  change (-1) with (- (1)). rewrite (lsr y 1 ltac:(lia) W). change (2 ^ 1) with 2. change (Z.land y 1) with (Z.land y (Z.ones 1)). rewrite Z.land_ones by lia. change (2 ^ 1) with 2. rewrite Zmod_odd. destruct (Z.odd y); reflexivity.
Qed.
Lemma temper_ok : forall y, word y -> tempered y = temper y.
Proof.
  intros y W. unfold tempered, temper. change (-11) with (- (11)). change (-18) with (- (18)). rewrite (lsr y 11 ltac:(lia) W). set (y1 := Z.lxor y (y / 2 ^ 11)). assert (W1 : word y1) by (apply lxor_w; [exact W|apply div_w; [lia|exact W]]).
  rewrite (lsl y1 7 ltac:(lia) W1). change MASKB with 2636928640. set (y2 := Z.lxor y1 _). assert (W2 : word y2) by (apply lxor_w; [exact W1|apply land_w; apply mod_w]).
  rewrite (lsl y2 15 ltac:(lia) W2). change MASKC with 4022730752. set (y3 := Z.lxor y2 _). assert (W3 : word y3) by (apply lxor_w; [exact W2|apply land_w; apply mod_w]).
  rewrite (lsr y3 18 ltac:(lia) W3). reflexivity.
Qed.
Lemma temper_w : forall y, word y -> word (temper y).
Proof.
  intros y W. unfold temper. set (y1 := Z.lxor y (y / 2 ^ 11)). assert (W1 : word y1) by (apply lxor_w; [exact W|apply div_w; [lia|exact W]]).
  set (y2 := Z.lxor y1 _). assert (W2 : word y2) by (apply lxor_w; [exact W1|apply land_w; apply mod_w]).
  set (y3 := Z.lxor y2 _). assert (W3 : word y3) by (apply lxor_w; [exact W2|apply land_w; apply mod_w]). apply lxor_w; [exact W3|apply div_w; [lia|exact W3]].
Qed.
Lemma signed_ok : forall y, word y -> toInt y = signed y.
Proof. intros y W. unfold toInt, signed, wrap_s. unfold word in W. change (2 ^ (32 - 1)) with 2147483648. change (2 ^ 31) with 2147483648. change (2 ^ 32) with 4294967296 in *. destruct (y <? 2147483648) eqn:E; lia. Qed.

Lemma seq_w : forall seeds x, length seeds = 624%nat -> Forall word seeds -> sequence seeds x -> forall k, 0 <= k -> word (x k).
Proof.
  intros seeds x L F (I & R). assert (G : forall n k, 0 <= k < Z.of_nat n -> word (x k)).
  { induction n as [|n IH]; intros k K; [lia|]. destruct (Z_lt_le_dec k 624) as [Q|Q].
    - rewrite I by lia. rewrite Forall_forall in F. apply F. apply nth_In. lia.
    - replace k with (k - 624 + 624) by lia. rewrite R by lia. apply twist_w; apply IH; lia. }
  intros k K. apply (G (Z.to_nat (k + 1))). lia.
Qed.
(** The array in the middle of its renewal: the first kk elements are new. *)
Definition half (x : Z -> Z) (b kk : Z) (a : list Z) : Prop := zlen a = 624 /\ forall j, 0 <= j < 624 -> ix a j = x (b + j + (if j <? kk then 624 else 0)).
Lemma half_step : forall x b kk a i y z, (forall k, 0 <= k -> word (x k)) -> (forall k, 0 <= k -> x (k + 624) = twist (x k) (x (k + 1)) (x (k + 397))) -> 0 <= b -> 0 <= kk < 624 -> half x b kk a ->
  i = kk -> 0 <= y < 624 -> 0 <= z < 624 -> (y = kk + 1 \/ y = kk + 1 - 624) -> (z = kk + 397 \/ z = kk + 397 - 624) ->
  exists v a', mix (ix a i) (ix a y) (ix a z) = Ok v /\ setA a kk v = Ok a' /\ half x b (kk + 1) a'.
Proof.
  intros x b kk a i y z W R B K (L & H) -> Y Z HY HZ. exists (x (b + kk + 624)), (set_nth (Z.to_nat kk) (x (b + kk + 624)) a). rewrite !H by lia.
  replace (b + kk + (if kk <? kk then 624 else 0)) with (b + kk) by (rewrite Z.ltb_irrefl; lia). replace (b + y + (if y <? kk then 624 else 0)) with (b + kk + 1) by (destruct (y <? kk) eqn:Q; lia).
  replace (b + z + (if z <? kk then 624 else 0)) with (b + kk + 397) by (destruct (z <? kk) eqn:Q; lia).
  split; [rewrite R by lia; apply mix_ok; apply W; lia|]. split; [apply setA_ix; lia|]. split; [rewrite zlen_set; exact L|]. intros j J. rewrite ix_set by lia. destruct (j =? kk) eqn:E.
  - replace (j <? kk + 1) with true by lia. f_equal. lia.
  - rewrite H by lia. f_equal. destruct (j <? kk) eqn:E1, (j <? kk + 1) eqn:E2; lia.
Qed.
Lemma gen_ok : forall x b off n kk a, (forall k, 0 <= k -> word (x k)) -> (forall k, 0 <= k -> x (k + 624) = twist (x k) (x (k + 1)) (x (k + 397))) -> 0 <= b -> half x b kk a -> 0 <= kk -> kk + Z.of_nat n < 624 ->
  (off = 397 /\ kk + Z.of_nat n <= 227 \/ off = 397 - 624 /\ 227 <= kk) -> exists a', gen n kk off a = Ok a' /\ half x b (kk + Z.of_nat n) a'.
Proof.
  intros x b off n. induction n as [|n IH]; intros kk a W R B H K N O; cbn [gen].
  - exists a. split; [reflexivity|]. replace (kk + Z.of_nat 0) with kk by lia. exact H.
  - pose proof (proj1 H) as L. rewrite !getA_ix, !bok by lia. destruct (half_step x b kk a kk (kk + 1) (kk + off) W R B ltac:(lia) H eq_refl ltac:(lia) ltac:(lia) ltac:(lia) ltac:(lia)) as (v & a' & -> & E & H').
    rewrite bok, E, bok. destruct (IH (kk + 1) a' W R B H' ltac:(lia) ltac:(lia) ltac:(lia)) as (a2 & E2 & H2). exists a2. split; [exact E2|]. replace (kk + Z.of_nat (S n)) with (kk + 1 + Z.of_nat n) by lia. exact H2.
Qed.
Lemma refill_ok : forall x b a, (forall k, 0 <= k -> word (x k)) -> (forall k, 0 <= k -> x (k + 624) = twist (x k) (x (k + 1)) (x (k + 397))) -> 0 <= b -> half x b 0 a -> exists a', refill a = Ok a' /\ half x b 624 a'.
Proof.
  intros x b a W R B H. unfold refill. destruct (gen_ok x b 397 227 0 a W R B H ltac:(lia) ltac:(lia) ltac:(lia)) as (a1 & -> & H1). rewrite bok. change (0 + Z.of_nat 227) with 227 in H1.
  destruct (gen_ok x b (397 - 624) 396 227 a1 W R B H1 ltac:(lia) ltac:(lia) ltac:(lia)) as (a2 & -> & H2). rewrite bok. change (227 + Z.of_nat 396) with 623 in H2. pose proof (proj1 H2) as L.
  rewrite !getA_ix, !bok by lia. destruct (half_step x b 623 a2 623 0 396 W R B ltac:(lia) H2 eq_refl ltac:(lia) ltac:(lia) ltac:(lia) ltac:(lia)) as (v & a' & -> & E & H3). rewrite bok, E. exists a'. split; [reflexivity|exact H3].
Qed.
Lemma half_next : forall x b a, half x b 624 a -> half x (b + 624) 0 a.
Proof. intros x b a (L & H). split; [exact L|]. intros j J. rewrite H by lia. f_equal. destruct (j <? 624) eqn:E, (j <? 0) eqn:F; lia. Qed.
Lemma copy_ok : forall s n i a, zlen s = 624 -> zlen a = 624 -> 0 <= i -> i + Z.of_nat n = 624 -> (forall j, 0 <= j < i -> ix a j = ix s j) ->
  exists a', copy_loop n i s a = Ok a' /\ a' = s.
Proof.
  intros s n. induction n as [|n IH]; intros i a LS LA I N H; cbn [copy_loop].
  - exists a. split; [reflexivity|]. apply ix_ext; [lia|]. intros j J. apply H. lia.
  - rewrite getA_ix, bok, setA_ix, bok by lia. apply IH; try lia; [rewrite zlen_set; exact LA|]. intros j J. rewrite ix_set by lia. destruct (j =? i) eqn:E; [f_equal; lia|apply H; lia].
Qed.
Lemma calls_ok : forall x n b st, (forall k, 0 <= k -> word (x k)) -> (forall k, 0 <= k -> x (k + 624) = twist (x k) (x (k + 1)) (x (k + 397))) -> 0 <= b -> half x b 0 (mt st) -> 0 <= mti st <= 624 ->
  calls n st = Ok (map (fun k => signed (temper (x (b + mti st + Z.of_nat k)))) (seq 0 n)).
Proof.
  intros x n. induction n as [|n IH]; intros b st W R B H M; [reflexivity|]. cbn [calls]. unfold Int.
  assert (G : exists b' st', (if 624 <=? mti st then let* st := (if mti st =? 625 then SetSeed 4357 st else Ok st) in let* a := refill (mt st) in Ok {| mt := a; mti := 0 |} else Ok st) = Ok st' /\
    0 <= b' /\ half x b' 0 (mt st') /\ 0 <= mti st' < 624 /\ b' + mti st' = b + mti st).
  { destruct (624 <=? mti st) eqn:E.
    - replace (mti st =? 625) with false by lia. rewrite bok. destruct (refill_ok x b (mt st) W R B H) as (a & -> & H1). rewrite bok. exists (b + 624). eexists. split; [reflexivity|]. cbn [mt mti].
      split; [lia|]. split; [apply half_next; exact H1|]. lia.
    - exists b, st. split; [reflexivity|]. split; [exact B|]. split; [exact H|]. lia. }
  destruct G as (b' & st' & -> & B' & H' & M' & E'). rewrite bok. pose proof (proj1 H') as L. rewrite getA_ix, bok by lia. rewrite bok.
  rewrite (IH b' {| mt := mt st'; mti := mti st' + 1 |} W R B' H') by (cbn [mti]; lia). rewrite bok. cbn [seq map mti]. f_equal. f_equal.
  - rewrite (proj2 H') by lia. replace (mti st' <? 0) with false by lia. rewrite temper_ok by (apply W; lia). rewrite signed_ok by (apply temper_w; apply W; lia). f_equal. f_equal. f_equal. lia.
  - rewrite <- seq_shift, map_map. apply map_ext. intros k. f_equal. f_equal. f_equal. lia.
Qed.
(** After SetSeeds the calls of Int give the numbers of the generator, one after the other, without end. *)
Theorem C99_stream_partial : forall seeds x st n, length seeds = 624%nat -> Forall word seeds -> length (mt st) = 624%nat -> sequence seeds x ->
  exists st', SetSeeds seeds st = Ok st' /\ calls n st' = Ok (map (fun k => signed (temper (x (624 + Z.of_nat k)))) (seq 0 n)).
Proof.
  intros seeds x st n L F LM S. unfold SetSeeds. destruct (copy_ok seeds 624 0 (mt st)) as (a & -> & ->); try (unfold zlen; lia). rewrite bok. eexists. split; [reflexivity|].
  rewrite (calls_ok x n 0); [reflexivity|apply (seq_w seeds x L F S)|apply S|lia| |cbn [mti]; lia]. cbn [mt]. split; [unfold zlen; lia|]. intros j J. replace (j <? 0) with false by lia. rewrite Z.add_0_r. symmetry. apply (proj1 S). exact J.
Qed.
(** Every array of seeds has a sequence. *)
Fixpoint windows (n : nat) (w : list Z) : list Z := match n with O => w | S n => windows n (tl w ++ [twist (nth 0 w 0) (nth 1 w 0) (nth 397 w 0)]) end.
Lemma windows_S : forall n w, windows (S n) w = tl (windows n w) ++ [twist (nth 0 (windows n w) 0) (nth 1 (windows n w) 0) (nth 397 (windows n w) 0)].
Proof. induction n as [|n IH]; intros w; [reflexivity|]. change (windows (S (S n)) w) with (windows (S n) (tl w ++ [twist (nth 0 w 0) (nth 1 w 0) (nth 397 w 0)])). rewrite IH. reflexivity. Qed.
Lemma windows_len : forall n w, length w = 624%nat -> length (windows n w) = 624%nat.
Proof. induction n as [|n IH]; intros w L; [exact L|]. rewrite windows_S. specialize (IH w L). rewrite app_length. destruct (windows n w); cbn in *; lia. Qed.
Lemma windows_nth : forall j n w, length w = 624%nat -> (j < 624)%nat -> nth j (windows n w) 0 = nth 0 (windows (n + j) w) 0.
Proof.
  induction j as [|j IH]; intros n w L J; [rewrite Nat.add_0_r; reflexivity|]. replace (n + S j)%nat with (S n + j)%nat by lia. rewrite <- IH by (try assumption; lia). rewrite windows_S.
  pose proof (windows_len n w L) as LW. destruct (windows n w) as [|y v] eqn:E; [cbn in LW; lia|]. cbn [nth tl]. cbn in LW. rewrite app_nth1 by lia. reflexivity.
Qed.
Theorem C99_exists : forall seeds, length seeds = 624%nat -> exists x, sequence seeds x.
Proof.
  intros seeds L. exists (fun k => nth 0 (windows (Z.to_nat k) seeds) 0). split.
  - intros k K. pose proof (windows_nth (Z.to_nat k) 0 seeds L ltac:(lia)) as Q. cbn [windows plus] in Q. symmetry. exact Q.
  - intros k K. set (n := Z.to_nat k). replace (Z.to_nat (k + 1)) with (n + 1)%nat by lia. replace (Z.to_nat (k + 397)) with (n + 397)%nat by lia. replace (Z.to_nat (k + 624)) with (S n + 623)%nat by lia.
    rewrite <- !windows_nth by (try assumption; lia). rewrite windows_S. rewrite app_nth2; pose proof (windows_len n seeds L) as LW; destruct (windows n seeds) as [|y v]; cbn [length tl] in *; try lia.
    replace (623 - length v)%nat with O by lia. reflexivity.
Qed.
(** SetSeed has no defined meaning for any seed: its products overflow at once. *)
Lemma chk_ub : forall p, ~ in_int 32 p -> chk 32 p = UB. Proof. intros p H. unfold chk. destruct (in_intb 32 p) eqn:E; [|reflexivity]. apply in_intb_iff in E. contradiction. Qed.
Lemma seed_big : forall n i s a, 0 <= i < zlen a -> 31093 < Z.abs s -> seed_loop (S n) i s a = UB.
Proof. intros n i s a I S. cbn [seed_loop]. rewrite setA_ix, bok by exact I. rewrite chk_ub; [reflexivity|]. rewrite in_int32. lia. Qed.
Theorem C99_seed_refuted : forall seed st, in_int 32 seed -> length (mt st) = 624%nat -> SetSeed seed st = UB.
Proof.
  intros seed st H L. unfold SetSeed. enough (seed_loop 624 0 seed (mt st) = UB) as -> by reflexivity. assert (LZ : zlen (mt st) = 624) by (unfold zlen; lia).
  destruct (Z_lt_le_dec 31093 (Z.abs seed)) as [B|B]; [apply seed_big; lia|]. change 624%nat with (S (S 622)) at 1. remember (S 622) as m. cbn [seed_loop]. rewrite setA_ix, bok by lia.
  unfold chk at 1. destruct (in_intb 32 (69069 * seed)) eqn:E1; [|reflexivity]. rewrite bok. unfold chk at 1. destruct (in_intb 32 (69069 * seed + 1)) eqn:E2; [|reflexivity]. rewrite bok.
  rewrite getA_ix, bok by (rewrite zlen_set; lia). unfold chk at 1. destruct (in_intb 32 ((69069 * seed + 1) * toInt 4294901760)) eqn:E3; [|reflexivity]. rewrite bok, setA_ix, bok by (rewrite zlen_set; lia).
  apply in_intb_iff, in_int32 in E3. change (toInt 4294901760) with (-65536) in E3. assert (seed = 0) by lia. subst seed. change (69069 * 0 + 1) with 1. change (chk 32 (69069 * 1)) with (Ok 69069). rewrite bok. change (chk 32 (69069 + 1)) with (Ok 69070). rewrite bok.
  subst m. apply seed_big; rewrite ?zlen_set; lia.
Qed.
Theorem C99_unseeded_refuted : Int start = UB. Proof. unfold Int. cbn [mti start Z.leb Z.compare Pos.compare Pos.compare_cont Z.eqb Pos.eqb]. rewrite C99_seed_refuted; [reflexivity|apply in_int32; lia|reflexivity]. Qed.
(** Real gives negative numbers, and IntRange gives numbers out of its range or has no defined meaning. *)
Definition after (seeds : list Z) {A : Type} (f : state -> res (A * state)) : res A := let* st := SetSeeds seeds start in let* r := f st in Ok (fst r).
Definition some_seeds (k : Z) : list Z := map (fun i => (1000003 * (Z.of_nat i + k)) mod 2 ^ 32) (seq 0 624).
Lemma some_ok : forall k, length (some_seeds k) = 624%nat /\ Forall word (some_seeds k).
Proof. intros k. split; [unfold some_seeds; rewrite map_length, seq_length; reflexivity|]. apply Forall_forall. intros y Y. apply in_map_iff in Y as (i & <- & _). apply mod_w. Qed.
Theorem C99_real_refuted : exists seeds l, length seeds = 624%nat /\ Forall word seeds /\ after seeds Real = Ok l /\ l < 0.
Proof. exists (some_seeds 1), (-272835634). split; [apply some_ok|]. split; [apply some_ok|]. split; [vm_compute; reflexivity|lia]. Qed.
Theorem C99_range_refuted : exists seeds, length seeds = 624%nat /\ Forall word seeds /\ after seeds (IntRange 10) = UB /\ exists v, after seeds (IntRange 1) = Ok v /\ ~ 0 <= v < 1.
Proof. exists (some_seeds 1). split; [apply some_ok|]. split; [apply some_ok|]. split; [vm_compute; reflexivity|]. exists 61372. split; [vm_compute; reflexivity|lia]. Qed.
Example C99_met : length (some_seeds 1) = 624%nat /\ Forall word (some_seeds 1) /\ (exists x, sequence (some_seeds 1) x) /\ after (some_seeds 1) Int = Ok (-272835634).
Proof. split; [apply some_ok|]. split; [apply some_ok|]. split; [apply C99_exists; apply some_ok|]. vm_compute. reflexivity. Qed.
Print Assumptions C99_stream_partial. Print Assumptions C99_exists. Print Assumptions C99_seed_refuted. Print Assumptions C99_unseeded_refuted. Print Assumptions C99_real_refuted. Print Assumptions C99_range_refuted.
