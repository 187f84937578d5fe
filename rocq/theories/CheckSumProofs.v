(** Proofs about the check sums of ethZlib. *)
From Verif Require Import Base ArrZ CheckSumModel CheckSumSpec.

(** * Adler-32 *)
Lemma adler_mod : forall l a b a' b', a mod 65521 = a' mod 65521 -> b mod 65521 = b' mod 65521 ->
  l <> [] -> adler a b l = adler a' b' l.
Proof.
  intros [|d l] a b a' b' Ha Hb N; [congruence|]. cbn [adler].
  rewrite (Z.add_mod b (a + d)), (Z.add_mod b' (a' + d)), (Z.add_mod a d), (Z.add_mod a' d) by lia.
  rewrite Ha, Hb. reflexivity.
Qed.
Lemma adler_app : forall l1 l2 a b, adler a b (l1 ++ l2) = adler (fst (adler a b l1)) (snd (adler a b l1)) l2.
Proof. induction l1 as [|d l1 IH]; intros; cbn [app adler]; auto. Qed.
Lemma adler_range : forall l a b, 0 <= a < 65521 -> 0 <= b < 65521 ->
  0 <= fst (adler a b l) < 65521 /\ 0 <= snd (adler a b l) < 65521.
Proof.
  induction l as [|d l IH]; intros a b Ha Hb; cbn [adler]; [cbn; lia|].
  apply IH; apply Z.mod_pos_bound; lia.
Qed.
Fixpoint sums (a b : Z) (l : list Z) : Z * Z :=
  match l with [] => (a, b) | d :: l => sums (a + d) (b + (a + d)) l end.
Lemma sums_adler : forall l a b,
  (fst (sums a b l) mod 65521, snd (sums a b l) mod 65521) = (fst (adler a b l) mod 65521, snd (adler a b l) mod 65521).
Proof.
  induction l as [|d l IH]; intros a b; cbn [sums adler]; [reflexivity|].
  rewrite IH. destruct l as [|e l].
  - cbn [adler fst snd]. rewrite !Z.mod_mod by lia. reflexivity.
  - rewrite (adler_mod (e :: l) (a + d) (b + (a + d)) ((a + d) mod 65521) ((b + (a + d)) mod 65521));
      rewrite ?Z.mod_mod by lia; auto; discriminate.
Qed.
Lemma inner_ok : forall l m p q a b,
  Forall (fun d => 0 <= d <= m) l -> l <> [] -> 0 <= m -> 0 <= a -> 0 <= b ->
  a + m * zlen l < 2 ^ 31 ->
  2 * (b + zlen l * a) + m * (zlen l * (zlen l + 1)) < 2 ^ 32 ->
  inner (length l) (p ++ l ++ q) a b (zlen p) (zlen l) =
  Ok (fst (sums a b l), snd (sums a b l), zlen p + zlen l).
Proof.
  induction l as [|d l IH]; intros m p q a b F N Hm Ha Hb HA HB; [congruence|].
  apply Forall_cons_iff in F. destruct F as [Hd F]. cbn [length inner app].
  rewrite zlen_cons in HA, HB. pose proof (zlen_nonneg _ l) as Hl. set (n := zlen l) in *.
  rewrite getA_at, bind_ok.
  assert (m * (1 + n) = m + m * n) as E1 by ring.
  assert (0 <= m * n) as P1 by (apply Z.mul_nonneg_nonneg; lia).
  assert (0 <= n * a) as P2 by (apply Z.mul_nonneg_nonneg; lia).
  assert (m * ((1 + n) * (1 + n + 1)) = 2 * m + 2 * (m * n) + (m * (n * (n + 1)))) as E2 by ring.
  assert (0 <= m * (n * (n + 1))) as P3 by (repeat apply Z.mul_nonneg_nonneg; lia).
  assert ((1 + n) * a = a + n * a) as E3 by ring.
  assert (n * (a + d) <= n * a + m * n) as E4.
  { replace (n * (a + d)) with (n * a + d * n) by ring. apply Z.add_le_mono_l. apply Z.mul_le_mono_nonneg_r; lia. }
  rewrite chk_ok by (apply in_int32; lia). rewrite bind_ok.
  rewrite chk_ok by (apply in_int32; lia). rewrite bind_ok. cbv zeta.
  rewrite zlen_cons. fold n. replace (1 + n - 1) with n by lia. cbn [sums].
  destruct l as [|e l].
  - replace (n =? 0) with true by (unfold n; reflexivity). reflexivity.
  - assert (n =? 0 = false) as Z0 by (unfold n in *; rewrite zlen_cons; pose proof (zlen_nonneg _ l); lia). rewrite Z0.
    replace (p ++ d :: (e :: l) ++ q) with ((p ++ [d]) ++ (e :: l) ++ q) by (rewrite <- app_assoc; reflexivity).
    replace (zlen p + 1) with (zlen (p ++ [d])) by (rewrite zlen_app; reflexivity).
    rewrite IH with (m := m); auto; try lia; try discriminate.
    rewrite zlen_app. change (zlen [d]) with 1. fold n. replace (zlen p + 1 + n) with (zlen p + (1 + n)) by lia. reflexivity.
Qed.

Lemma split_at : forall (l : list Z) n, 0 <= n <= zlen l ->
  exists x y, l = x ++ y /\ zlen x = n.
Proof.
  intros l n H. exists (firstn (Z.to_nat n) l), (skipn (Z.to_nat n) l).
  rewrite firstn_skipn. split; auto. apply zlen_firstn. auto.
Qed.

Lemma outer_ok : forall fuel l m p q a b,
  Forall (fun d => 0 <= d <= m) l -> 0 <= m <= 255 -> 0 <= a < 65521 -> 0 <= b < 65521 ->
  (let c := Z.min (zlen l) 5552 in m * (c * (c + 1)) + 2 * ((c + 1) * 65520) < 2 ^ 32) ->
  (length l < fuel)%nat ->
  outer fuel (p ++ l ++ q) a b (zlen p) (zlen l) = Ok (adler a b l).
Proof.
  induction fuel as [|f IH]; intros l m p q a b F Hm Ha Hb HC HF; [lia|].
  cbn [outer]. pose proof (zlen_nonneg _ l) as Hl.
  destruct (zlen l >? 0) eqn:E.
  2:{ destruct l; [|rewrite zlen_cons in E; pose proof (zlen_nonneg _ l); lia]. cbn [adler]. reflexivity. }
  cbv zeta. set (k := if zlen l <? nmax then zlen l else nmax).
  assert (k = Z.min (zlen l) 5552) as Hk by (unfold k, nmax; destruct (zlen l <? 5552) eqn:?; lia).
  destruct (split_at l k ltac:(lia)) as (x & y & -> & Lx).
  cbv zeta in HC. rewrite <- Hk in HC.
  apply Forall_app in F. destruct F as [Fx Fy].
  replace (Z.to_nat k) with (length x) by (unfold zlen in Lx; lia).
  replace (p ++ (x ++ y) ++ q) with (p ++ x ++ (y ++ q)) by (rewrite <- app_assoc; reflexivity).
  rewrite <- Lx at 1.
  assert (x <> []) as Nx by (intro; subst x; cbn in Lx; lia).
  rewrite inner_ok with (m := m); auto; try lia.
  2:{ rewrite Lx. assert (m * k <= 255 * k) by (apply Z.mul_le_mono_nonneg_r; lia). lia. }
  2:{ rewrite Lx. assert (k * a <= k * 65520) by (apply Z.mul_le_mono_nonneg_l; lia).
      replace ((k + 1) * 65520) with (k * 65520 + 65520) in HC by ring. lia. }
  rewrite bind_ok. pose proof (sums_adler x a b) as S. injection S as S1 S2.
  pose proof (adler_range x a b Ha Hb) as [R1 R2].
  rewrite (Z.mod_small (fst (adler a b x))) in S1 by auto. rewrite (Z.mod_small (snd (adler a b x))) in S2 by auto.
  unfold base. rewrite S1, S2.
  replace (p ++ x ++ y ++ q) with ((p ++ x) ++ y ++ q) by (rewrite <- app_assoc; reflexivity).
  replace (zlen p + zlen x) with (zlen (p ++ x)) by (rewrite zlen_app; lia).
  replace (zlen (x ++ y) - k) with (zlen y) by (rewrite zlen_app; lia).
  rewrite IH with (m := m); auto; try lia.
  - rewrite adler_app. reflexivity.
  - cbv zeta. set (c := Z.min (zlen y) 5552).
    assert (0 <= c <= k) as Hc by (pose proof (zlen_nonneg _ y); rewrite zlen_app in Hk; pose proof (zlen_nonneg _ x); lia).
    assert (c * (c + 1) <= k * (k + 1)) by (apply Z.mul_le_mono_nonneg; lia).
    assert (m * (c * (c + 1)) <= m * (k * (k + 1))) by (apply Z.mul_le_mono_nonneg_l; lia). lia.
  - rewrite app_length in HF. destruct x; [congruence|]. cbn in HF. lia.
Qed.

Lemma unpack : forall a b, 0 <= a < 65521 -> 0 <= b < 65521 ->
  packed (a, b) mod 65536 = a /\ LSHR (packed (a, b)) 16 mod 65536 = b.
Proof.
  intros a b Ha Hb. unfold packed, LSHR, wrap_s, wrap_u. cbn [fst snd].
  change (2 ^ (32 - 1)) with 2147483648. change (2 ^ 32) with 4294967296.
  rewrite Z.shiftr_div_pow2 by lia. change (2 ^ 16) with 65536.
  Ltac Zify.zify_post_hook ::= Z.to_euclidean_division_equations.
  split; lia.
Qed.
Lemma pack : forall a b, 0 <= a < 65521 -> 0 <= b < 65521 -> chk 32 (LSHL b 16 + a) = Ok (packed (a, b)).
Proof.
  intros a b Ha Hb. unfold packed, LSHL, wrap_s, wrap_u. cbn [fst snd].
  rewrite Z.shiftl_mul_pow2 by lia. change (2 ^ (32 - 1)) with 2147483648. change (2 ^ 32) with 4294967296. change (2 ^ 16) with 65536.
  replace (b mod 4294967296) with b by lia.
  rewrite chk_ok; [f_equal; lia|]. apply in_int32. lia.
Qed.
Ltac Zify.zify_post_hook ::= idtac.

Theorem adler_ok : forall l m p q a b,
  Forall (fun d => 0 <= d <= m) l -> 0 <= m <= 255 -> 0 <= a < 65521 -> 0 <= b < 65521 ->
  (let c := Z.min (zlen l) 5552 in m * (c * (c + 1)) + 2 * ((c + 1) * 65520) < 2 ^ 32) ->
  Adler32 (packed (a, b)) (p ++ l ++ q) (zlen p) (zlen l) = Ok (packed (adler a b l)).
Proof.
  intros l m p q a b F Hm Ha Hb HC. unfold Adler32. pose proof (zlen_nonneg _ l).
  replace (zlen l <? 0) with false by lia. destruct (unpack a b Ha Hb) as [-> ->]. cbv zeta.
  rewrite outer_ok with (m := m); auto.
  2:{ unfold zlen. rewrite Nat2Z.id. lia. }
  rewrite bind_ok. destruct (adler_range l a b Ha Hb). destruct (adler a b l) as [a' b']. apply pack; auto.
Qed.

(** * CRC-32 *)
Lemma addp_nil : forall p, addp p [] = p.
Proof. destruct p; reflexivity. Qed.
Lemma addp_comm : forall p q, addp p q = addp q p.
Proof. induction p as [|x p IH]; intros [|y q]; cbn [addp]; auto. rewrite xorb_comm, IH. reflexivity. Qed.
Lemma addp_assoc : forall p q r, addp p (addp q r) = addp (addp p q) r.
Proof.
  induction p as [|x p IH]; intros [|y q] [|z r]; cbn [addp]; auto.
  rewrite xorb_assoc, IH. reflexivity.
Qed.
Lemma addp_length : forall p q, length (addp p q) = Nat.max (length p) (length q).
Proof. induction p as [|x p IH]; intros [|y q]; cbn [addp length]; auto. rewrite IH. lia. Qed.
Lemma addp_zeros : forall p n, (n <= length p)%nat -> addp p (repeat false n) = p.
Proof.
  induction p as [|x p IH]; intros [|n] H; cbn [addp repeat length] in *; auto; try lia.
  rewrite xorb_false_r, IH by lia. reflexivity.
Qed.
Lemma addp_snoc : forall p q, (length p < length q)%nat -> addp (p ++ [false]) q = addp p q.
Proof.
  induction p as [|x p IH]; intros [|y q] H; cbn [addp app length] in *; try lia.
  - destruct y; reflexivity.
  - rewrite IH by lia. reflexivity.
Qed.
Lemma addp_app : forall p q r, (length q <= length p)%nat -> addp (p ++ r) q = addp p q ++ r.
Proof.
  induction p as [|x p IH]; intros [|y q] r H; cbn [addp app length] in *; try lia; auto.
  - rewrite addp_nil. reflexivity.
  - rewrite IH by lia. reflexivity.
Qed.
Lemma addp_apps : forall p q r s, length p = length q -> addp (p ++ r) (q ++ s) = addp p q ++ addp r s.
Proof.
  induction p as [|x p IH]; intros [|y q] r s H; cbn [addp app length] in *; try lia; auto.
  rewrite IH by lia. reflexivity.
Qed.
Lemma addp_self : forall p, addp p p = repeat false (length p).
Proof. induction p as [|x p IH]; cbn [addp length repeat]; auto. rewrite xorb_nilpotent, IH. reflexivity. Qed.
Lemma addp_zero_eq : forall p q, length p = length q -> addp p q = repeat false (length p) -> p = q.
Proof.
  induction p as [|x p IH]; intros [|y q] L E; cbn [addp length repeat] in *; try lia; auto.
  injection E as E1 E2. rewrite (IH q) by (auto; lia). destruct x, y; try discriminate E1; reflexivity.
Qed.

Definition T := tail_of_divisor.
Lemma T_length : length T = 32%nat.
Proof. reflexivity. Qed.
Definition sub (f : bool) : list bool := if f then T else [].
Definition step (r : list bool) (b : bool) : list bool :=
  match r with [] => [] | h :: t => addp (t ++ [false]) (sub (xorb h b)) end.
Fixpoint serial (r m : list bool) : list bool :=
  match m with [] => r | b :: m => serial (step r b) m end.

Lemma step_length : forall r b, length r = 32%nat -> length (step r b) = 32%nat.
Proof.
  intros [|h t] b L; [discriminate L|]. cbn [step]. rewrite addp_length, app_length. cbn [length] in *.
  unfold sub. destruct (xorb h b); rewrite ?T_length; cbn [length]; lia.
Qed.
Lemma serial_length : forall m r, length r = 32%nat -> length (serial r m) = 32%nat.
Proof. induction m as [|b m IH]; intros r L; cbn [serial]; auto. apply IH, step_length, L. Qed.
Lemma serial_app : forall m1 m2 r, serial r (m1 ++ m2) = serial (serial r m1) m2.
Proof. induction m1 as [|b m IH]; intros; cbn [app serial]; auto. Qed.

Lemma div_serial : forall m r, length r = 32%nat -> crc_of r m = serial r m.
Proof.
  intros m r L. unfold crc_of, divide. rewrite addp_length, app_length, repeat_length, L.
  replace (Nat.max 32 (length m + 32) - 32)%nat with (length m) by lia.
  revert r L. induction m as [|b m IH]; intros r L; cbn [length remainder serial app].
  - rewrite addp_zeros by lia. reflexivity.
  - destruct r as [|h t]; [discriminate L|]. cbn [addp step]. cbn [length] in L.
    rewrite <- IH by (apply (step_length (h :: t) b); cbn [length]; lia). f_equal.
    rewrite <- (addp_snoc t) by (rewrite app_length, repeat_length; lia). unfold sub.
    destruct (xorb h b).
    + rewrite <- !addp_assoc. f_equal. apply addp_comm.
    + rewrite addp_nil. reflexivity.
Qed.

Lemma absorb : forall m r, length r = 32%nat -> (length m <= 32)%nat ->
  serial r m = serial (addp r m) (repeat false (length m)).
Proof.
  induction m as [|b m IH]; intros r L M; cbn [length] in *; cbn [serial repeat].
  - rewrite addp_nil. reflexivity.
  - rewrite IH by (auto using step_length; lia). f_equal.
    destruct r as [|h t]; [discriminate L|]. cbn [addp step]. cbn [length] in L. rewrite xorb_false_r.
    rewrite <- (addp_app t m) by lia. rewrite <- !addp_assoc. f_equal. apply addp_comm.
Qed.

Lemma sub_xor : forall f g, (length T = 32)%nat -> forall p, length p = 32%nat -> addp p (sub (xorb f g)) = addp (addp p (sub f)) (sub g).
Proof.
  intros f g _ p Lp. destruct f, g; cbn [xorb sub]; rewrite ?addp_nil; auto.
  rewrite <- addp_assoc, addp_self. symmetry. apply addp_zeros. rewrite T_length. lia.
Qed.
Lemma step_lin : forall r1 r2 b1 b2, length r1 = 32%nat -> length r2 = 32%nat ->
  step (addp r1 r2) (xorb b1 b2) = addp (step r1 b1) (step r2 b2).
Proof.
  intros [|h t] [|h' t'] b1 b2 L1 L2; try discriminate. cbn [addp step]. cbn [length] in *.
  replace (xorb (xorb h h') (xorb b1 b2)) with (xorb (xorb h b1) (xorb h' b2)) by (destruct h, h', b1, b2; reflexivity).
  rewrite sub_xor by (auto using T_length; rewrite app_length, addp_length; cbn [length]; lia).
  replace (addp t t' ++ [false]) with (addp (t ++ [false]) (t' ++ [false])) by (rewrite addp_apps by lia; reflexivity).
  rewrite <- !addp_assoc. f_equal. rewrite !addp_assoc. f_equal. apply addp_comm.
Qed.
Lemma serial_lin : forall m1 m2 r1 r2, length r1 = 32%nat -> length r2 = 32%nat -> length m1 = length m2 ->
  serial (addp r1 r2) (addp m1 m2) = addp (serial r1 m1) (serial r2 m2).
Proof.
  induction m1 as [|b1 m1 IH]; intros [|b2 m2] r1 r2 L1 L2 LM; cbn [length] in LM; try lia; cbn [addp serial]; auto.
  rewrite step_lin by auto. apply IH; auto using step_length.
Qed.
Lemma shift_out : forall k t, length (repeat false k ++ t) = 32%nat -> serial (repeat false k ++ t) (repeat false k) = t ++ repeat false k.
Proof.
  induction k as [|k IH]; intros t L; cbn [repeat app serial].
  - rewrite app_nil_r. reflexivity.
  - cbn [step sub xorb]. rewrite addp_nil, <- app_assoc. rewrite IH.
    + rewrite <- app_assoc. f_equal.
    + cbn [repeat app length] in L. rewrite !app_length in *. cbn [length]. lia.
Qed.

(** One zero bit loses nothing. *)
Lemma T_last : exists t, T = t ++ [true].
Proof. exists (removelast T). reflexivity. Qed.
Lemma step_zero : forall r, length r = 32%nat -> step r false = repeat false 32 -> r = repeat false 32.
Proof.
  intros [|h t] L E; [discriminate L|]. cbn [step] in E. rewrite xorb_false_r in E. cbn [length] in L.
  assert (length t = 31%nat) as Lt by lia.
  destruct h; cbn [sub] in E.
  - exfalso. replace T with (removelast T ++ [true]) in E by reflexivity.
    rewrite addp_apps in E by (rewrite Lt; reflexivity). change (repeat false 32) with (repeat false 31 ++ [false]) in E.
    apply app_inj_tail in E. destruct E as [_ E]. discriminate E.
  - rewrite addp_nil in E. change (repeat false 32) with (repeat false 31 ++ [false]) in E.
    apply app_inj_tail in E. destruct E as [-> _]. reflexivity.
Qed.
Lemma serial_zero : forall n r, length r = 32%nat -> serial r (repeat false n) = repeat false 32 -> r = repeat false 32.
Proof.
  induction n as [|n IH]; intros r L E; cbn [repeat serial] in E; auto.
  apply step_zero; auto. apply IH; auto using step_length.
Qed.

(** Bits of numbers. *)
Lemma bitlist_length : forall n x, length (bitlist n x) = n.
Proof. intros. unfold bitlist. rewrite map_length, seq_length. reflexivity. Qed.
Lemma bitlist_eq : forall n x y, (forall i, 0 <= i < Z.of_nat n -> Z.testbit x i = Z.testbit y i) -> bitlist n x = bitlist n y.
Proof. intros n x y H. unfold bitlist. apply map_ext_in. intros i Hi. apply in_seq in Hi. apply H. lia. Qed.
Lemma tb_u : forall x i, 0 <= i < 32 -> Z.testbit (wrap_u 32 x) i = Z.testbit x i.
Proof. intros. unfold wrap_u. apply Z.mod_pow2_bits_low. lia. Qed.
Lemma wrap_su : forall x, wrap_s 32 x mod 2 ^ 32 = x mod 2 ^ 32.
Proof.
  intros. unfold wrap_s. rewrite Zminus_mod, Z.mod_mod, <- Zminus_mod by lia. f_equal. ring.
Qed.
Lemma tb_s : forall x i, 0 <= i < 32 -> Z.testbit (wrap_s 32 x) i = Z.testbit x i.
Proof.
  intros x i H. rewrite <- (Z.mod_pow2_bits_low (wrap_s 32 x) 32 i) by lia. rewrite wrap_su. apply Z.mod_pow2_bits_low. lia.
Qed.
Lemma tb_shr : forall x n i, 0 <= n -> 0 <= i < 32 ->
  Z.testbit (LSHR x n) i = if i + n <? 32 then Z.testbit x (i + n) else false.
Proof.
  intros x n i Hn Hi. unfold LSHR. rewrite tb_s by auto. rewrite Z.shiftr_spec by lia.
  destruct (i + n <? 32) eqn:E; [apply tb_u; lia|]. unfold wrap_u. apply Z.mod_pow2_bits_high. lia.
Qed.
Lemma bitlist_inj : forall x y, in_int 32 x -> in_int 32 y -> bitlist 32 x = bitlist 32 y -> x = y.
Proof.
  intros x y Hx Hy E.
  assert (x mod 2 ^ 32 = y mod 2 ^ 32) as M.
  { apply Z.bits_inj'. intros i Hi. destruct (Z_lt_ge_dec i 32).
    - rewrite !Z.mod_pow2_bits_low by lia. pose proof (f_equal (fun l => nth (Z.to_nat i) l false) E) as N. cbv beta in N.
      unfold bitlist in N.
      rewrite !(nth_indep _ false (Z.testbit x (Z.of_nat 0))) in N by (rewrite map_length, seq_length; lia).
      rewrite (map_nth (fun i => Z.testbit x (Z.of_nat i))) in N.
      rewrite (nth_indep _ _ (Z.testbit y (Z.of_nat 0))) in N by (rewrite map_length, seq_length; lia).
      rewrite (map_nth (fun i => Z.testbit y (Z.of_nat i))) in N.
      rewrite !seq_nth in N by lia. replace (Z.of_nat (0 + Z.to_nat i)) with i in N by lia. exact N.
    - rewrite !Z.mod_pow2_bits_high by lia. reflexivity. }
  apply in_int32 in Hx. apply in_int32 in Hy. change (2 ^ 32) with 4294967296 in M.
  Ltac Zify.zify_post_hook ::= Z.to_euclidean_division_equations.
  lia.
Qed.
Ltac Zify.zify_post_hook ::= idtac.
Lemma bitlist_xor : forall n x y, bitlist n (Z.lxor x y) = addp (bitlist n x) (bitlist n y).
Proof.
  intros n x y. unfold bitlist. generalize 0%nat. induction n as [|n IH]; intro k; cbn [seq map addp]; auto.
  rewrite Z.lxor_spec, IH. reflexivity.
Qed.
Lemma bitlist_split : forall n k x, bitlist (n + k) x = bitlist n x ++ bitlist k (Z.shiftr x (Z.of_nat n)).
Proof.
  intros. unfold bitlist. rewrite seq_app, map_app. f_equal. cbn [plus].
  replace n with (n + 0)%nat at 1 by lia. generalize 0%nat. induction k as [|k IH]; intro j; cbn [seq map]; auto.
  rewrite Z.shiftr_spec by lia. f_equal; [f_equal; lia|]. replace (S (n + j)) with (n + S j)%nat by lia. apply IH.
Qed.
Lemma bitlist_false : forall n x, (forall i, 0 <= i < Z.of_nat n -> Z.testbit x i = false) -> bitlist n x = repeat false n.
Proof.
  intros n x H. rewrite (bitlist_eq n x 0) by (intros; rewrite H by auto; rewrite Z.bits_0; reflexivity).
  unfold bitlist. generalize 0%nat. clear H. induction n as [|n IH]; intro k; cbn [seq map repeat]; auto. rewrite Z.bits_0, IH. reflexivity.
Qed.
Lemma bitlist_shr : forall x, forall n : nat, (n <= 32)%nat ->
  bitlist 32 (LSHR x (Z.of_nat n)) = bitlist (32 - n) (Z.shiftr x (Z.of_nat n)) ++ repeat false n.
Proof.
  intros x n H. replace 32%nat with ((32 - n) + n)%nat at 1 by lia. rewrite bitlist_split. f_equal.
  - apply bitlist_eq. intros i Hi. rewrite tb_shr by lia. rewrite Z.shiftr_spec by lia.
    replace (i + Z.of_nat n <? 32) with true by lia. reflexivity.
  - apply bitlist_false. intros i Hi. rewrite Z.shiftr_spec by lia. rewrite tb_shr by lia.
    replace (i + Z.of_nat (32 - n) + Z.of_nat n <? 32) with false by lia. reflexivity.
Qed.
Lemma T_poly : T = bitlist 32 (set_of poly).
Proof. reflexivity. Qed.
Lemma bitlist_s : forall x, bitlist 32 (wrap_s 32 x) = bitlist 32 x.
Proof. intros. apply bitlist_eq. intros. apply tb_s. lia. Qed.
Lemma bitlist_u : forall x, bitlist 32 (wrap_u 32 x) = bitlist 32 x.
Proof. intros. apply bitlist_eq. intros. apply tb_u. lia. Qed.

Lemma bit_step : forall c,
  bitlist 32 (if Z.odd c then int_of (Z.lxor (set_of poly) (set_of (LSHR c 1))) else LSHR c 1) = step (bitlist 32 c) false.
Proof.
  intro c. pose proof (bitlist_shr c 1 ltac:(lia)) as S. change (Z.of_nat 1) with 1 in S. change (32 - 1)%nat with 31%nat in S. cbn [repeat] in S.
  replace (bitlist 32 c) with (bitlist 1 c ++ bitlist 31 (Z.shiftr c 1)) by (symmetry; exact (bitlist_split 1 31 c)).
  change (bitlist 1 c) with [Z.testbit c 0]. cbn [app step]. rewrite Z.bit0_odd, xorb_false_r, <- S.
  destruct (Z.odd c); cbn [sub].
  - unfold int_of. rewrite bitlist_s, bitlist_xor, <- T_poly. unfold set_of. rewrite bitlist_u. apply addp_comm.
  - rewrite addp_nil. reflexivity.
Qed.
Lemma bits_serial : forall n c, bitlist 32 (bits n c) = serial (bitlist 32 c) (repeat false n).
Proof. induction n as [|n IH]; intro c; cbn [bits repeat serial]; auto. rewrite IH, bit_step. reflexivity. Qed.

Lemma table_at : forall i, 0 <= i < 256 -> getA CRCTable i = Ok (bits 8 i).
Proof.
  intros i H. apply getA_ok; [lia|]. unfold CRCTable. rewrite nth_error_map.
  rewrite (nth_error_nth' (seq 0 256) 0%nat) by (rewrite seq_length; lia). rewrite seq_nth by lia.
  cbn [option_map]. f_equal. f_equal. lia.
Qed.
Lemma byte_high : forall d i, 0 <= d < 256 -> 8 <= i -> Z.testbit d i = false.
Proof. intros d i H Hi. rewrite <- (Z.mod_small d (2 ^ 8)) by (change (2 ^ 8) with 256; lia). apply Z.mod_pow2_bits_high. lia. Qed.

Lemma byte_step : forall crc d e, 0 <= d < 256 ->
  e = bits 8 (int_of (Z.lxor (set_of crc) (set_of d)) mod 256) ->
  bitlist 32 (int_of (Z.lxor (set_of e) (set_of (LSHR crc 8)))) = serial (bitlist 32 crc) (bitlist 8 d).
Proof.
  intros crc d e Hd ->. unfold int_of at 1. rewrite bitlist_s, bitlist_xor. unfold set_of at 1 4. rewrite !bitlist_u, bits_serial.
  rewrite (absorb (bitlist 8 d)) by (rewrite bitlist_length; lia). rewrite (bitlist_length 8 d).
  pose proof (bitlist_shr crc 8 ltac:(lia)) as S. change (Z.of_nat 8) with 8 in S. change (32 - 8)%nat with 24%nat in S.
  rewrite S. clear S. set (hi := bitlist 24 (Z.shiftr crc 8)).
  assert (length (repeat false 8 ++ hi) = 32%nat) as Lh by (rewrite app_length, repeat_length; unfold hi; rewrite bitlist_length; reflexivity).
  rewrite <- (shift_out 8 hi Lh). rewrite <- serial_lin by (auto using bitlist_length).
  change (addp (repeat false 8) (repeat false 8)) with (repeat false 8). f_equal.
  rewrite !(bitlist_split 8 24 : forall x, bitlist 32 x = _). change (Z.of_nat 8) with 8. fold hi.
  rewrite addp_apps by (rewrite bitlist_length; reflexivity).
  rewrite (addp_app (bitlist 8 crc) (bitlist 8 d)) by (rewrite !bitlist_length; lia).
  rewrite addp_zeros by (rewrite bitlist_length; lia). f_equal.
  - rewrite <- bitlist_xor. apply bitlist_eq. intros i Hi. change 256 with (2 ^ 8). rewrite Z.mod_pow2_bits_low by lia.
    unfold int_of, set_of. rewrite tb_s by lia. rewrite !Z.lxor_spec, !tb_u by lia. reflexivity.
  - rewrite bitlist_false.
    + rewrite addp_comm. apply addp_zeros. unfold hi. rewrite bitlist_length. lia.
    + intros i Hi. rewrite Z.shiftr_spec by lia. change 256 with (2 ^ 8). apply Z.mod_pow2_bits_high. lia.
Qed.

Lemma loop_ok : forall l p q crc, bytes l -> in_int 32 crc ->
  exists c, crc_loop (length l) crc (p ++ l ++ q) (zlen p) = Ok c /\ in_int 32 c /\ bitlist 32 c = serial (bitlist 32 crc) (message l).
Proof.
  induction l as [|d l IH]; intros p q crc B H; cbn [length crc_loop].
  - exists crc. auto.
  - apply Forall_cons_iff in B. destruct B as [Hd B]. cbn [app]. rewrite getA_at, bind_ok. cbv zeta.
    rewrite table_at by (apply Z.mod_pos_bound; lia). rewrite bind_ok.
    replace (p ++ d :: l ++ q) with ((p ++ [d]) ++ l ++ q) by (rewrite <- app_assoc; reflexivity).
    replace (zlen p + 1) with (zlen (p ++ [d])) by (rewrite zlen_app; reflexivity).
    edestruct (IH (p ++ [d]) q) as (c & E & R & M); [exact B| |exists c; split; [exact E|split; [exact R|]]].
    + apply wrap_s_range. lia.
    + rewrite M. cbn [message flat_map]. rewrite serial_app. f_equal. apply byte_step; auto.
Qed.
Lemma bitlist_not : forall x, bitlist 32 (int_of (Z.lxor (set_of x) 4294967295)) = map negb (bitlist 32 x).
Proof.
  intro x. unfold int_of. rewrite bitlist_s. unfold bitlist. rewrite map_map. apply map_ext_in. intros i Hi. apply in_seq in Hi.
  rewrite Z.lxor_spec. unfold set_of. rewrite tb_u by lia. change 4294967295 with (Z.ones 32). rewrite Z.ones_spec_low by lia.
  apply xorb_true_r.
Qed.
Theorem crc_ok : forall l p q crc, bytes l -> in_int 32 crc ->
  exists c, CRC32 crc (p ++ l ++ q) (zlen p) (zlen l) = Ok c /\ in_int 32 c /\
    bitlist 32 c = map negb (serial (map negb (bitlist 32 crc)) (message l)).
Proof.
  intros l p q crc B H. unfold CRC32. pose proof (zlen_nonneg _ p). replace (zlen p <? 0) with false by lia.
  replace (Z.to_nat (zlen l)) with (length l) by (unfold zlen; lia).
  destruct (loop_ok l p q (int_of (Z.lxor (set_of crc) 4294967295)) B ltac:(apply wrap_s_range; lia)) as (c & E & R & M).
  rewrite E, bind_ok. eexists. split; [reflexivity|]. split; [apply wrap_s_range; lia|].
  rewrite bitlist_not, M, bitlist_not. reflexivity.
Qed.
Lemma message_length : forall l, length (message l) = (8 * length l)%nat.
Proof. induction l as [|d l IH]; cbn [message flat_map length]; auto. fold (message l). rewrite app_length, bitlist_length, IH. lia. Qed.
Lemma message_app : forall a b, message (a ++ b) = message a ++ message b.
Proof. intros. unfold message. rewrite flat_map_app. reflexivity. Qed.
Lemma bitlist8_inj : forall x y, is_byte x -> is_byte y -> bitlist 8 x = bitlist 8 y -> x = y.
Proof.
  intros x y Hx Hy E. unfold is_byte in *. apply bitlist_inj; try (apply in_int32; lia).
  rewrite !(bitlist_split 8 24 : forall x, bitlist 32 x = _). change (Z.of_nat 8) with 8.
  rewrite E. f_equal. apply bitlist_eq. intros i Hi. rewrite !Z.shiftr_spec, !byte_high by lia. reflexivity.
Qed.
Lemma app_inj_len : forall A (a b c d : list A), length a = length c -> a ++ b = c ++ d -> a = c /\ b = d.
Proof.
  induction a as [|x a IH]; intros b [|y c] d L E; cbn in *; try lia; auto.
  injection E as -> E. apply IH in E; [|lia]. destruct E. subst. auto.
Qed.
Lemma message_inj : forall a b, bytes a -> bytes b -> length a = length b -> message a = message b -> a = b.
Proof.
  induction a as [|x a IH]; intros [|y b] Ha Hb L E; cbn [length] in L; try lia; auto.
  apply Forall_cons_iff in Ha. apply Forall_cons_iff in Hb. destruct Ha, Hb.
  cbn [message flat_map] in E. apply app_inj_len in E; [|rewrite !bitlist_length; auto]. destruct E as [E1 E2].
  f_equal; [apply bitlist8_inj; auto|apply IH; auto].
Qed.
Lemma map_negb_inj : forall a b, map negb a = map negb b -> a = b.
Proof.
  intros a b E. apply (f_equal (map negb)) in E. rewrite !map_map in E.
  rewrite !(map_ext (fun x => negb (negb x)) (fun x => x) negb_involutive), !map_id in E. auto.
Qed.
(** Different bits within 32 places are seen. *)
Lemma burst : forall r m1 m2 s, length r = 32%nat -> length m1 = length m2 -> (length m1 <= 32)%nat ->
  serial r (m1 ++ s) = serial r (m2 ++ s) -> m1 = m2.
Proof.
  intros r m1 m2 s Lr L L32 E. rewrite !serial_app in E.
  assert (serial r m1 = serial r m2) as E1.
  { apply addp_zero_eq; [rewrite !serial_length; auto|]. rewrite serial_length by auto.
    apply (serial_zero (length s)); [rewrite addp_length, !serial_length; auto|].
    rewrite <- addp_self. rewrite serial_lin by (auto using serial_length). rewrite E, addp_self, serial_length; auto using serial_length. }
  clear E. assert (addp (serial r m1) (serial r m2) = repeat false 32) as E by (rewrite E1, addp_self, serial_length; auto).
  rewrite <- serial_lin in E by auto. rewrite addp_self, Lr in E.
  rewrite absorb in E by (rewrite ?repeat_length, ?addp_length; lia).
  apply serial_zero in E; [|rewrite !addp_length, repeat_length, L; lia].
  apply addp_zero_eq; auto. rewrite addp_comm in E.
  assert (length (addp m1 m2) = length m1) as LL by (rewrite addp_length; lia).
  revert E LL L32. generalize (addp m1 m2) (length m1). clear. intros p n E <- L.
  replace 32%nat with (length p + (32 - length p))%nat in E by lia. rewrite !repeat_app in E.
  replace p with (p ++ []) in E at 1 by apply app_nil_r.
  rewrite addp_apps in E by (rewrite repeat_length; auto).
  rewrite (addp_zeros p) in E by lia. apply app_inj_len in E; [|rewrite repeat_length; auto]. tauto.
Qed.
