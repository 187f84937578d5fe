From Verif Require Import Base ArrZ ArithModel FilesModel FilesSpec FilesProofs CodecModel CodecSpec.

(** The file holds c and the rider stands at p. *)
Definition FileAt (f : file) (r : rider) (c : list Z) (p : Z) : Prop :=
  exists ids, Inv f c ids /\ Rok f ids r /\ p = Z.min (rpos r) (zlen c).

Lemma FileAt_range : forall f r c p, FileAt f r c p -> 0 <= p <= zlen c.
Proof.
  intros f r c p (ids & H & R & ->). pose proof (zlen_nonneg _ c). destruct R. unfold rpos. lia.
Qed.

Lemma Write_at : forall f r c p x, FileAt f r c p ->
  exists f' r', Write f r x = Ok (f', r') /\ FileAt f' r' (overwrite c p [x]) (p + 1).
Proof.
  intros f r c p x F. pose proof (FileAt_range _ _ _ _ F) as Rg. destruct F as (ids & H & R & E).
  destruct (Write_spec f c ids r x H R) as (g & r' & ids' & W & S1 & S2 & S3 & S4 & S5 & S6 & S7).
  rewrite <- (I_len _ _ _ H) in *. rewrite <- E in *.
  exists g, r'. split; auto. exists ids'. split; auto. split; auto. rewrite zlen_overwrite by auto.
  change (zlen [x]) with 1. lia.
Qed.
Lemma Read_at : forall f r c p, FileAt f r c p -> p < zlen c ->
  exists f' r', Read f r = Ok (ix c p, f', r') /\ FileAt f' r' c (p + 1).
Proof.
  intros f r c p F Hp. pose proof (FileAt_range _ _ _ _ F) as Rg. destruct F as (ids & H & R & E).
  destruct (Read_spec f c ids r H R) as (x & g & r' & ids' & W & S1 & S2 & S3 & S4 & S5 & S6).
  pose proof (I_len _ _ _ H) as L. destruct S6 as [(T1 & T2 & T3 & T4)|(T1 & T2 & T3 & T4)]; [|lia].
  assert (Ep : p = rpos r) by lia.
  exists g, r'. split; [rewrite W, T2, Ep; auto|]. exists ids'. split; auto. split; auto. lia.
Qed.
Lemma Read_end : forall f r c, FileAt f r c (zlen c) ->
  exists f' r', Read f r = Ok (0, f', r') /\ FileAt f' r' c (zlen c) /\ r_eof r' = true.
Proof.
  intros f r c F. destruct F as (ids & H & R & E).
  destruct (Read_spec f c ids r H R) as (x & g & r' & ids' & W & S1 & S2 & S3 & S4 & S5 & S6).
  pose proof (I_len _ _ _ H) as L. destruct S6 as [(T1 & T2 & T3 & T4)|(T1 & T2 & T3 & T4)]; [lia|].
  exists g, r'. split; [rewrite W, T2; auto|]. split; auto. exists ids'. split; auto. split; auto. lia.
Qed.
Lemma WriteBytes_at : forall f r c p x n, FileAt f r c p -> 0 < n <= zlen x ->
  exists f' r', WriteBytes f r x n = Ok (f', r') /\ FileAt f' r' (overwrite c p (firstn (Z.to_nat n) x)) (p + n).
Proof.
  intros f r c p x n F Hn. pose proof (FileAt_range _ _ _ _ F) as Rg. destruct F as (ids & H & R & E).
  unfold WriteBytes. replace (n >? zlen x) with false by lia.
  assert (Lf : zlen (firstn (Z.to_nat n) x) = n) by (apply zlen_firstn; lia).
  destruct (writebytes_spec (S (length x)) f c ids r (firstn (Z.to_nat n) x) H R ltac:(lia) ltac:(unfold zlen in *; lia))
        as (g & r' & ids' & W & S1 & S2 & S3 & S4 & S5 & S6 & S7).
  rewrite <- (I_len _ _ _ H) in *. rewrite <- E in *.
  exists g, r'. split; auto. exists ids'. split; auto. split; auto. rewrite zlen_overwrite by auto. lia.
Qed.
Lemma ReadBytes_at : forall f r c p n, FileAt f r c p -> 0 < n ->
  let k := Z.min n (zlen c - p) in
  exists f' r', ReadBytes f r n n = Ok (sub c p k, f', r') /\ FileAt f' r' c (p + k) /\ r_res r' = n - k /\ r_eof r' = (k <? n).
Proof.
  intros f r c p n F Hn k. pose proof (FileAt_range _ _ _ _ F) as Rg. destruct F as (ids & H & R & E).
  unfold ReadBytes. replace (n >? n) with false by lia.
  destruct (readbytes_spec (S (Z.to_nat n)) f c ids r [] n H R ltac:(lia) ltac:(lia))
        as (g & r' & ids' & W & S1 & S2 & S3 & S4 & S5 & S6 & S7).
  rewrite <- (I_len _ _ _ H) in *. rewrite <- E in *. fold k in W, S5, S6, S7. cbn [app] in W.
  exists g, r'. split; auto. split; auto. exists ids'. split; auto. split; auto. lia.
Qed.
Lemma Set_at : forall f r c p pos, FileAt f r c p -> 0 <= pos <= zlen c ->
  FileAt (fst (Set_ f pos)) (snd (Set_ f pos)) c pos.
Proof.
  intros f r c p pos (ids & H & R & E) Hp. pose proof (Set_spec f c ids pos H) as S. destruct (Set_ f pos) as [g r'].
  destruct S as (ids' & S1 & S2 & S3 & S4 & S5 & S6 & S7 & S8 & S9 & S10). cbn [fst snd].
  exists ids'. split; auto. split; auto. pose proof (I_len _ _ _ H). lia.
Qed.

(** Reading back what lies at p after an overwrite. *)
Lemma sub_overwrite : forall c p xs, 0 <= p <= zlen c -> sub (overwrite c p xs) p (zlen xs) = xs.
Proof.
  intros c p xs Hp. pose proof (zlen_nonneg _ xs). apply ix_ext.
  - rewrite zlen_sub by (rewrite ?zlen_overwrite by auto; lia). rewrite zlen_overwrite by auto. lia.
  - intros j Hj. rewrite zlen_sub in Hj by (rewrite ?zlen_overwrite by auto; lia). rewrite zlen_overwrite in Hj by auto.
    rewrite ix_sub by lia. rewrite ix_overwrite by lia.
    replace ((p <=? p + j) && (p + j <? p + zlen xs)) with true by lia. f_equal. lia.
Qed.

(** * Numbers *)
Lemma CHRx_byte : forall rc x, 0 <= x < 256 -> CHRx rc x = Ok x.
Proof.
  intros rc x H. unfold CHRx. destruct rc.
  - unfold CHR_inline, R_inline. replace (x <? 256) with true by lia. cbn [bind]. rewrite wrap_u_id; auto.
  - rewrite wrap_u_id; auto.
Qed.
Lemma land127 : forall x, Z.land x 127 = x mod 128.
Proof. intro x. change 127 with (Z.ones 7). rewrite Z.land_ones by lia. reflexivity. Qed.
Lemma land63 : forall x, Z.land x 63 = x mod 64.
Proof. intro x. change 63 with (Z.ones 6). rewrite Z.land_ones by lia. reflexivity. Qed.
Lemma ASHR_ok : forall x n, 0 <= n < 64 -> ASHR x n = Ok (x / 2 ^ n).
Proof.
  intros x n H. unfold ASHR. replace ((0 <=? n) && (n <? 64)) with true by lia. rewrite Z.shiftr_div_pow2 by lia. reflexivity.
Qed.
Lemma ASHL_ok : forall x n, 0 <= n < 64 -> in_int 64 (x * 2 ^ n) -> ASHL x n = Ok (x * 2 ^ n).
Proof.
  intros x n H R. unfold ASHL. replace ((0 <=? n) && (n <? 64)) with true by lia. rewrite Z.shiftl_mul_pow2 by lia.
  rewrite wrap_s_id; auto. lia.
Qed.
Lemma ASH_ok : forall x n, 0 <= n < 64 -> in_int 64 (x * 2 ^ n) -> ASH x n = Ok (x * 2 ^ n).
Proof. intros x n H R. unfold ASH. replace (n >=? 0) with true by lia. apply ASHL_ok; auto. Qed.

Lemma num_wf_nonempty : forall bs, num_wf bs -> 1 <= zlen bs.
Proof. intros [|b bs] H; [destruct H|]. rewrite zlen_cons. pose proof (zlen_nonneg _ bs). lia. Qed.
Lemma num_wf_cons : forall b r, r <> [] -> (num_wf (b :: r) <-> 128 <= b < 256 /\ num_wf r).
Proof. intros b [|x r] H; [congruence|]. reflexivity. Qed.
Lemma num_val_cons : forall b r, r <> [] -> num_val (b :: r) = (b - 128) + 128 * num_val r.
Proof. intros b [|x r] H; [congruence|]. reflexivity. Qed.
Lemma num_wf_ne : forall r, num_wf r -> r <> [].
Proof. intros [|x r] H; [destruct H|discriminate]. Qed.

Lemma writenum_spec : forall rc k fuel f r c p x, (k < fuel)%nat -> FileAt f r c p ->
  - (64 * 128 ^ Z.of_nat k) <= x < 64 * 128 ^ Z.of_nat k ->
  exists bs f' r', writenum_loop rc fuel f r x = Ok (f', r') /\ num_wf bs /\ num_val bs = x /\ zlen bs <= Z.of_nat k + 1 /\
    (forall bs', num_wf bs' -> num_val bs' = x -> zlen bs <= zlen bs') /\
    FileAt f' r' (overwrite c p bs) (p + zlen bs).
Proof.
  intro rc. induction k as [|k IH]; intros fuel f r c p x Hf F Hx; (destruct fuel as [|fuel]; [lia|]); cbn [writenum_loop].
  all: destruct ((x <? -64) || (x >? 63)) eqn:E.
  - change (128 ^ Z.of_nat 0) with 1 in Hx. lia.
  - rewrite land127. rewrite CHRx_byte by lia. cbn [bind].
    destruct (Write_at f r c p (x mod 128) F) as (f' & r' & W & F').
    exists [x mod 128], f', r'. split; auto. split; [cbn [num_wf]; lia|]. split.
    { cbn [num_val]. destruct (x mod 128 <? 64) eqn:E2; lia. }
    split; [cbn; lia|]. split; [|exact F']. intros bs' W' _. change (zlen [x mod 128]) with 1. apply num_wf_nonempty; auto.
  - rewrite land127. rewrite CHRx_byte by lia. cbn [bind].
    destruct (Write_at f r c p (x mod 128 + 128) F) as (f' & r' & W & F'). rewrite W. cbn [bind].
    rewrite ASHR_ok by lia. cbn [bind]. change (2 ^ 7) with 128.
    destruct (IH fuel f' r' _ _ (x / 128) ltac:(lia) F') as (bs & f2 & r2 & L & B1 & B2 & B3 & B4 & B5).
    { rewrite Nat2Z.inj_succ, Z.pow_succ_r in Hx by lia. lia. }
    pose proof (num_wf_ne _ B1) as Ne. pose proof (FileAt_range _ _ _ _ F).
    exists (x mod 128 + 128 :: bs), f2, r2. split; auto. split; [apply num_wf_cons; auto; split; [lia|auto]|].
    split; [rewrite num_val_cons by auto; rewrite B2; lia|].
    split; [rewrite zlen_cons; lia|]. split.
    + intros bs' W' V'. destruct bs' as [|b' t']; [destruct W'|]. rewrite !zlen_cons. destruct t' as [|b2 t2].
      * cbn [num_wf num_val] in W', V'. destruct (b' <? 64) eqn:Eb; lia.
      * destruct W' as [W1 W2]. assert (V2 : num_val (b2 :: t2) = x / 128).
        { rewrite num_val_cons in V' by discriminate. clear - V' W1. lia. }
        specialize (B4 _ W2 V2). lia.
    + rewrite zlen_cons. replace (p + (1 + zlen bs)) with (p + 1 + zlen bs) by lia.
      change (x mod 128 + 128 :: bs) with ([x mod 128 + 128] ++ bs).
      rewrite <- overwrite_app by auto. exact B5.
  - rewrite land127. rewrite CHRx_byte by lia. cbn [bind].
    destruct (Write_at f r c p (x mod 128) F) as (f' & r' & W & F').
    exists [x mod 128], f', r'. split; auto. split; [cbn [num_wf]; lia|]. split.
    { cbn [num_val]. destruct (x mod 128 <? 64) eqn:E2; lia. }
    split; [cbn [zlen length]; change (zlen [x mod 128]) with 1; lia|]. split; [|exact F'].
    intros bs' W' _. change (zlen [x mod 128]) with 1. apply num_wf_nonempty; auto.
Qed.

Lemma sub_cons : forall c p b bs, 0 <= p -> sub c p (zlen (b :: bs)) = b :: bs -> p + zlen (b :: bs) <= zlen c ->
  ix c p = b /\ sub c (p + 1) (zlen bs) = bs.
Proof.
  intros c p b bs Hp H L. rewrite zlen_cons in L. pose proof (zlen_nonneg _ bs).
  assert (J : forall j, 0 <= j < 1 + zlen bs -> ix c (p + j) = ix (b :: bs) j).
  { intros j Hj. rewrite <- H at 1. rewrite ix_sub; auto. rewrite zlen_cons. lia. }
  split.
  - specialize (J 0 ltac:(lia)). rewrite Z.add_0_r in J. rewrite J. reflexivity.
  - apply ix_ext; [rewrite zlen_sub by lia; lia|]. intros j Hj. rewrite zlen_sub in Hj by lia. rewrite ix_sub by lia.
    specialize (J (j + 1) ltac:(lia)). rewrite ix_cons in J by lia. replace (p + 1 + j) with (p + (j + 1)) by lia.
    rewrite J. f_equal. lia.
Qed.

Lemma wrap8_byte : forall b, 0 <= b < 256 -> wrap_s 8 b = if b <? 128 then b else b - 256.
Proof. intros b H. unfold wrap_s. change (2 ^ (8 - 1)) with 128. change (2 ^ 8) with 256. destruct (b <? 128) eqn:E; lia. Qed.

Lemma readnum_spec : forall bs fuel f r c p q s, FileAt f r c p -> num_wf bs -> zlen bs <= Z.of_nat fuel ->
  p + zlen bs <= zlen c -> sub c p (zlen bs) = bs ->
  0 <= s -> s + 7 * (zlen bs - 1) <= 63 -> 0 <= q < 2 ^ s -> in_int 64 (q + 2 ^ s * num_val bs) ->
  exists f' r', readnum_loop fuel f r q s = Ok (q + 2 ^ s * num_val bs, f', r') /\ FileAt f' r' c (p + zlen bs).
Proof.
  induction bs as [|b bs IH]; intros fuel f r c p q s F W Lf Lc Sb Hs Hs7 Hq Hr; [destruct W|].
  pose proof (FileAt_range _ _ _ _ F) as Rg. destruct (sub_cons c p b bs ltac:(lia) Sb Lc) as [Eb Sb'].
  pose proof (zlen_nonneg _ bs) as Ln. rewrite zlen_cons in *.
  destruct fuel as [|fuel]; [lia|]. cbn [readnum_loop].
  destruct (Read_at f r c p F ltac:(lia)) as (f' & r' & Rd & F'). rewrite Rd, Eb. cbn [bind].
  assert (P0 : 0 < 2 ^ s) by (apply Z.pow_pos_nonneg; lia).
  destruct bs as [|b2 bs2] eqn:Ebs.
  - cbn [num_wf num_val] in W, Hr |- *. rewrite wrap8_byte by lia. replace (b <? 128) with true by lia.
    replace (b <? 0) with false by lia. rewrite ASHR_ok by lia. cbn [bind]. change (2 ^ 6) with 64.
    rewrite ASHL_ok by (unfold in_int; change (2 ^ 6) with 64; change (2 ^ (64 - 1)) with 9223372036854775808; lia).
    cbn [bind]. change (2 ^ 6) with 64. rewrite land63.
    set (v := if b <? 64 then b else b - 128) in *.
    assert (Ev : b mod 64 - b / 64 * 64 = v) by (unfold v; destruct (b <? 64) eqn:E; lia). rewrite Ev. clear Ev.
    change (zlen []) with 0 in *.
    assert (In : in_int 64 (v * 2 ^ s)).
    { unfold in_int in *. change (64 - 1) with 63 in *.
      assert (PQ : 2 ^ 63 = 2 ^ s * 2 ^ (63 - s)) by (rewrite <- Z.pow_add_r by lia; f_equal; lia).
      set (P := 2 ^ s) in *. set (Q := 2 ^ (63 - s)) in *. rewrite PQ in *. clearbody P Q v. clear - Hq Hr P0.
      assert (V1 : - Q <= v). { destruct (Z_le_gt_dec (- Q) v); auto. assert (P * (v + Q) <= P * (-1)) by (apply Z.mul_le_mono_nonneg_l; lia). nia. }
      assert (V2 : v < Q). { destruct (Z_lt_le_dec v Q); auto. assert (P * Q <= P * v) by (apply Z.mul_le_mono_nonneg_l; lia). nia. }
      nia. }
    rewrite ASH_ok by (auto; lia). cbn [bind]. rewrite chk_ok by (rewrite (Z.mul_comm v); auto). cbn [bind].
    rewrite (Z.mul_comm v). exists f', r'. split; auto.
  - rewrite <- Ebs in *. assert (Ne : bs <> []) by (rewrite Ebs; discriminate).
    apply num_wf_cons in W; auto. destruct W as [W1 W2]. rewrite num_val_cons in * by auto.
    pose proof (num_wf_nonempty _ W2) as L1.
    rewrite wrap8_byte by lia. replace (b <? 128) with false by lia. replace (b - 256 <? 0) with true by lia.
    replace (b - 256 + 128) with (b - 128) by lia.
    assert (P7 : 2 ^ (s + 7) = 128 * 2 ^ s) by (rewrite Z.pow_add_r by lia; change (2 ^ 7) with 128; lia).
    assert (P63 : 2 ^ (s + 7) <= 2 ^ 63) by (apply Z.pow_le_mono_r; lia).
    assert (In : in_int 64 ((b - 128) * 2 ^ s)).
    { unfold in_int. change (64 - 1) with 63. nia. }
    rewrite ASH_ok by (auto; lia). cbn [bind].
    assert (Q7 : 0 <= q + (b - 128) * 2 ^ s < 2 ^ (s + 7)) by nia.
    rewrite chk_ok by (unfold in_int; change (64 - 1) with 63; lia). cbn [bind].
    rewrite wrap_s_id by (unfold in_int; cbn; lia).
    destruct (IH fuel f' r' c (p + 1) (q + (b - 128) * 2 ^ s) (s + 7) F' W2 ltac:(lia) ltac:(lia) Sb' ltac:(lia) ltac:(lia) Q7)
      as (f2 & r2 & E2 & F2).
    { rewrite P7. replace (q + (b - 128) * 2 ^ s + 128 * 2 ^ s * num_val bs)
        with (q + 2 ^ s * (b - 128 + 128 * num_val bs)) by ring. auto. }
    exists f2, r2. rewrite E2, P7. split.
    + do 3 f_equal. ring.
    + replace (p + (1 + zlen bs)) with (p + 1 + zlen bs) by lia. auto.
Qed.

(** * Fixed-size values *)
Lemma CHRx_plain : forall x, CHRx false x = Ok (x mod 256).
Proof. reflexivity. Qed.
Lemma ix4 : forall a b c d, ix [a; b; c; d] 0 = a /\ ix [a; b; c; d] 1 = b /\ ix [a; b; c; d] 2 = c /\ ix [a; b; c; d] 3 = d.
Proof. auto. Qed.
Lemma filled_all : forall xs g, (length g <= length xs)%nat -> filled xs g = xs.
Proof. intros xs g H. unfold filled. rewrite skipn_all2 by auto. apply app_nil_r. Qed.

(** * Strings *)
Lemma strlen_spec : forall x n fuel i, terminated x -> 0 <= i -> (forall j, 0 <= j < i -> ix x j <> 0) ->
  n = zlen (str_of x) -> n - i < Z.of_nat fuel -> i <= n -> strlen_loop fuel x i = Ok n.
Proof.
  intros x n. induction fuel as [|fuel IH]; intros i T Hi Hb En Hf Hn; [lia|]. cbn [strlen_loop].
  pose proof (proj1 (terminated_ix x) T) as Tl. rewrite getA_ix by lia. cbn [bind].
  destruct (str_of_spec x) as (S1 & S2 & S3).
  destruct (ix x i =? 0) eqn:E.
  - f_equal. destruct (Z_lt_dec i n); [|lia]. exfalso. apply (S2 i ltac:(lia)). lia.
  - apply IH; auto; try lia.
    + intros j Hj. destruct (Z.eq_dec j i) as [->|]; [lia|apply Hb; lia].
    + destruct (Z.eq_dec i n); [|lia]. exfalso. subst i. rewrite En in E. rewrite S3 in E by lia. lia.
Qed.

(** What the string loops do: the bytes s at p are stored at i.., the position advances. *)
Definition stored (x : list Z) (i : Z) (s : list Z) : list Z := overwrite x i s.

Lemma set_overwrite : forall x i b s, 0 <= i < zlen x ->
  overwrite (set_nth (Z.to_nat i) b x) (i + 1) s = overwrite x i (b :: s).
Proof.
  intros x i b s Hi. pose proof (zlen_nonneg _ s). assert (L : zlen (set_nth (Z.to_nat i) b x) = zlen x) by apply zlen_set.
  apply ix_ext.
  - rewrite !zlen_overwrite by lia. rewrite zlen_cons. lia.
  - intros j Hj. rewrite !ix_overwrite by lia. rewrite zlen_cons.
    rewrite ix_set by lia.
    destruct ((i + 1 <=? j) && (j <? i + 1 + zlen s)) eqn:E1.
    + replace ((i <=? j) && (j <? i + (1 + zlen s))) with true by lia. rewrite ix_cons by lia. f_equal. lia.
    + destruct (j =? i) eqn:E2.
      * replace ((i <=? j) && (j <? i + (1 + zlen s))) with true by lia. replace (j - i) with 0 by lia. reflexivity.
      * replace ((i <=? j) && (j <? i + (1 + zlen s))) with false by lia. reflexivity.
Qed.

Lemma readstring_spec : forall s fuel f r c p x i, FileAt f r c p -> Forall (fun b => b <> 0) s ->
  p + zlen s < zlen c -> sub c p (zlen s) = s -> ix c (p + zlen s) = 0 ->
  0 <= i -> i + zlen s < zlen x -> zlen s < Z.of_nat fuel ->
  exists f' r', readstring_loop fuel f r x i = Ok (overwrite x i (s ++ [0]), f', r') /\ FileAt f' r' c (p + zlen s + 1).
Proof.
  induction s as [|b s IH]; intros fuel f r c p x i F N Lc Sb E0 Hi Lx Hf; (destruct fuel as [|fuel]; [cbn in Hf; lia|]);
    cbn [readstring_loop]; pose proof (FileAt_range _ _ _ _ F) as Rg.
  - change (zlen []) with 0 in *. rewrite Z.add_0_r in E0. destruct (Read_at f r c p F ltac:(lia)) as (f' & r' & Rd & F').
    rewrite Rd, E0. cbn [bind]. rewrite setA_ix by lia. cbn [bind]. rewrite Z.eqb_refl.
    exists f', r'. rewrite Z.add_0_r. split; auto. do 3 f_equal. cbn [app]. rewrite <- set_overwrite by lia.
    symmetry. apply overwrite_nil.
  - pose proof (zlen_nonneg _ s). destruct (sub_cons c p b s ltac:(lia) Sb ltac:(lia)) as [Eb Sb'].
    rewrite zlen_cons in *. inversion N as [|? ? N1 N2]; subst.
    destruct (Read_at f r c p F ltac:(lia)) as (f' & r' & Rd & F').
    rewrite Rd. cbn [bind]. rewrite setA_ix by lia. cbn [bind].
    replace (ix c p =? 0) with false by lia.
    destruct (IH fuel f' r' c (p + 1) (set_nth (Z.to_nat i) (ix c p) x) (i + 1) F' N2) as (f2 & r2 & E2 & F2);
      try (rewrite ?zlen_set; lia); auto.
    { rewrite <- E0. f_equal. lia. }
    exists f2, r2. rewrite E2. split.
    + do 3 f_equal. cbn [app]. apply set_overwrite. lia.
    + replace (p + (1 + zlen s) + 1) with (p + 1 + zlen s + 1) by lia. auto.
Qed.
(** At the end of the file: the rest is taken as the string. *)
Lemma readstring_eof : forall s fuel f r c p x i, FileAt f r c p -> Forall (fun b => b <> 0) s ->
  p + zlen s = zlen c -> sub c p (zlen s) = s ->
  0 <= i -> i + zlen s < zlen x -> zlen s < Z.of_nat fuel ->
  exists f' r', readstring_loop fuel f r x i = Ok (overwrite x i (s ++ [0]), f', r') /\ FileAt f' r' c (zlen c) /\ r_eof r' = true.
Proof.
  induction s as [|b s IH]; intros fuel f r c p x i F N Lc Sb Hi Lx Hf; (destruct fuel as [|fuel]; [cbn in Hf; lia|]);
    cbn [readstring_loop]; pose proof (FileAt_range _ _ _ _ F) as Rg.
  - change (zlen []) with 0 in *. replace p with (zlen c) in * by lia. destruct (Read_end f r c F) as (f' & r' & Rd & F' & E').
    rewrite Rd. cbn [bind]. rewrite setA_ix by lia. cbn [bind]. rewrite Z.eqb_refl.
    exists f', r'. split; [|auto]. do 3 f_equal. cbn [app]. rewrite <- set_overwrite by lia.
    symmetry. apply overwrite_nil.
  - pose proof (zlen_nonneg _ s). destruct (sub_cons c p b s ltac:(lia) Sb ltac:(lia)) as [Eb Sb'].
    rewrite zlen_cons in *. inversion N as [|? ? N1 N2]; subst.
    destruct (Read_at f r c p F ltac:(lia)) as (f' & r' & Rd & F').
    rewrite Rd. cbn [bind]. rewrite setA_ix by lia. cbn [bind].
    replace (ix c p =? 0) with false by lia.
    destruct (IH fuel f' r' c (p + 1) (set_nth (Z.to_nat i) (ix c p) x) (i + 1) F' N2) as (f2 & r2 & E2 & F2 & E3);
      try (rewrite ?zlen_set; lia); auto.
    exists f2, r2. rewrite E2. split; [|auto].
    do 3 f_equal. cbn [app]. apply set_overwrite. lia.
Qed.

Lemma readline_spec : forall s t fuel f r c p x i, FileAt f r c p -> Forall (fun b => b <> 0 /\ b <> 10) s -> t = 0 \/ t = 10 ->
  p + zlen s < zlen c -> sub c p (zlen s) = s -> ix c (p + zlen s) = t ->
  0 <= i -> i + zlen s < zlen x -> zlen s < Z.of_nat fuel ->
  exists f' r', readline_loop fuel f r x i = Ok (overwrite x i (s ++ [t]), i + zlen s + 1, f', r') /\ FileAt f' r' c (p + zlen s + 1).
Proof.
  induction s as [|b s IH]; intros t fuel f r c p x i F N Ht Lc Sb E0 Hi Lx Hf; (destruct fuel as [|fuel]; [cbn in Hf; lia|]);
    cbn [readline_loop]; pose proof (FileAt_range _ _ _ _ F) as Rg.
  - change (zlen []) with 0 in *. rewrite Z.add_0_r in E0. destruct (Read_at f r c p F ltac:(lia)) as (f' & r' & Rd & F').
    rewrite getA_ix by lia. cbn [bind]. rewrite Rd, E0. cbn [bind]. rewrite setA_ix by lia. cbn [bind].
    replace ((t =? 0) || (t =? 10)) with true by lia.
    exists f', r'. rewrite !Z.add_0_r. split; auto. do 4 f_equal. cbn [app]. rewrite <- set_overwrite by lia.
    symmetry. apply overwrite_nil.
  - pose proof (zlen_nonneg _ s). destruct (sub_cons c p b s ltac:(lia) Sb ltac:(lia)) as [Eb Sb'].
    rewrite zlen_cons in *. pose proof (Forall_inv N) as N1; pose proof (Forall_inv_tail N) as N2. cbv beta in N1.
    destruct (Read_at f r c p F ltac:(lia)) as (f' & r' & Rd & F').
    rewrite getA_ix by lia. cbn [bind]. rewrite Rd. cbn [bind]. rewrite setA_ix by lia. cbn [bind].
    rewrite Eb. replace ((b =? 0) || (b =? 10)) with false by lia.
    destruct (IH t fuel f' r' c (p + 1) (set_nth (Z.to_nat i) b x) (i + 1) F' N2 Ht) as (f2 & r2 & E2 & F2);
      try (rewrite ?zlen_set; lia); auto.
    { rewrite <- E0. f_equal. lia. }
    exists f2, r2. rewrite E2. split.
    + replace (i + (1 + zlen s) + 1) with (i + 1 + zlen s + 1) by lia. do 4 f_equal. cbn [app]. apply set_overwrite. lia.
    + replace (p + (1 + zlen s) + 1) with (p + 1 + zlen s + 1) by lia. auto.
Qed.
Lemma readline_eof : forall s fuel f r c p x i, FileAt f r c p -> Forall (fun b => b <> 0 /\ b <> 10) s ->
  p + zlen s = zlen c -> sub c p (zlen s) = s ->
  0 <= i -> i + zlen s < zlen x -> zlen s < Z.of_nat fuel ->
  exists f' r', readline_loop fuel f r x i = Ok (overwrite x i (s ++ [0]), i + zlen s + 1, f', r') /\
    FileAt f' r' c (zlen c) /\ r_eof r' = true.
Proof.
  induction s as [|b s IH]; intros fuel f r c p x i F N Lc Sb Hi Lx Hf; (destruct fuel as [|fuel]; [cbn in Hf; lia|]);
    cbn [readline_loop]; pose proof (FileAt_range _ _ _ _ F) as Rg.
  - change (zlen []) with 0 in *. replace p with (zlen c) in * by lia. destruct (Read_end f r c F) as (f' & r' & Rd & F' & E').
    rewrite getA_ix by lia. cbn [bind]. rewrite Rd. cbn [bind]. rewrite setA_ix by lia. cbn [bind].
    change ((0 =? 0) || (0 =? 10)) with true. cbv iota.
    exists f', r'. rewrite !Z.add_0_r. split; [|auto]. do 4 f_equal. cbn [app]. rewrite <- set_overwrite by lia.
    symmetry. apply overwrite_nil.
  - pose proof (zlen_nonneg _ s). destruct (sub_cons c p b s ltac:(lia) Sb ltac:(lia)) as [Eb Sb'].
    rewrite zlen_cons in *. pose proof (Forall_inv N) as N1; pose proof (Forall_inv_tail N) as N2. cbv beta in N1.
    destruct (Read_at f r c p F ltac:(lia)) as (f' & r' & Rd & F').
    rewrite getA_ix by lia. cbn [bind]. rewrite Rd. cbn [bind]. rewrite setA_ix by lia. cbn [bind].
    rewrite Eb. replace ((b =? 0) || (b =? 10)) with false by lia.
    destruct (IH fuel f' r' c (p + 1) (set_nth (Z.to_nat i) b x) (i + 1) F' N2) as (f2 & r2 & E2 & F2 & E3);
      try (rewrite ?zlen_set; lia); auto.
    exists f2, r2. rewrite E2. split; [|auto].
    replace (i + (1 + zlen s) + 1) with (i + 1 + zlen s + 1) by lia. do 4 f_equal. cbn [app]. apply set_overwrite. lia.
Qed.

Lemma strip_cr_app : forall s, strip_cr (s ++ [13]) = s.
Proof. intro s. unfold strip_cr. rewrite rev_app_distr. cbn [rev app]. apply rev_involutive. Qed.
Lemma strip_cr_other : forall s b, b <> 13 -> strip_cr (s ++ [b]) = s ++ [b].
Proof.
  intros s b H. unfold strip_cr. rewrite rev_app_distr. cbn [rev app].
  destruct b as [|b|b]; auto. do 4 (destruct b as [b|b|]; auto). congruence.
Qed.
Lemma strip_cr_cases : forall s, (strip_cr s = s /\ (s = [] \/ ix s (zlen s - 1) <> 13)) \/
  (s = strip_cr s ++ [13] /\ zlen s = zlen (strip_cr s) + 1 /\ ix s (zlen s - 1) = 13).
Proof.
  intro s. destruct (rev s) as [|b t] eqn:E.
  - left. assert (s = []) by (rewrite <- (rev_involutive s), E; reflexivity). subst. auto.
  - assert (Es : s = rev t ++ [b]) by (rewrite <- (rev_involutive s), E; reflexivity).
    assert (Lst : ix s (zlen s - 1) = b).
    { rewrite Es. rewrite zlen_app. change (zlen [b]) with 1. pose proof (zlen_nonneg _ (rev t)). rewrite ix_app by lia.
      replace (zlen (rev t) + 1 - 1 <? zlen (rev t)) with false by lia.
      replace (zlen (rev t) + 1 - 1 - zlen (rev t)) with 0 by lia. reflexivity. }
    destruct (Z.eq_dec b 13) as [->|N].
    + right. rewrite Es at 2 3. rewrite strip_cr_app. split; auto. split; auto.
      rewrite Es, zlen_app. change (zlen [13]) with 1. rewrite strip_cr_app. lia.
    + left. split; [rewrite Es; apply strip_cr_other; auto|]. right. lia.
Qed.
