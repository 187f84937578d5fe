From Verif Require Import Base ArrZ FilesModel FilesSpec.
Arguments BufSize : simpl never.

(** * put and sub *)
Lemma ix_over : forall a j, zlen a <= j -> ix a j = 0.
Proof. intros a j H. unfold ix, zlen in *. apply nth_overflow. lia. Qed.
Lemma nth_map_seq : forall (g : nat -> Z) n k, (k < n)%nat -> nth k (map g (seq 0 n)) 0 = g k.
Proof.
  intros g n k H. rewrite (nth_indep _ 0 (g 0%nat)) by (rewrite map_length, seq_length; lia).
  rewrite map_nth, seq_nth by lia. f_equal.
Qed.
Lemma zlen_put : forall d p xs, 0 <= p -> xs <> [] -> zlen (put d p xs) = Z.max (zlen d) (p + zlen xs).
Proof.
  intros d p xs Hp Hx. unfold put. destruct xs as [|x xs]; [congruence|].
  pose proof (zlen_nonneg _ d). unfold zlen at 1. rewrite map_length, seq_length. lia.
Qed.
Lemma ix_put : forall d p xs j, 0 <= p -> 0 <= j ->
  ix (put d p xs) j = if (p <=? j) && (j <? p + zlen xs) then ix xs (j - p) else ix d j.
Proof.
  intros d p xs j Hp Hj. destruct xs as [|x xs].
  - simpl put. rewrite zlen_nil. replace ((p <=? j) && (j <? p + 0)) with false by lia. reflexivity.
  - set (ys := x :: xs).
    assert (P : put d p ys = map (fun k => let j := Z.of_nat k in if (p <=? j) && (j <? p + zlen ys) then ix ys (j - p) else ix d j)
             (seq 0 (Z.to_nat (Z.max (zlen d) (p + zlen ys))))) by reflexivity.
    rewrite P. destruct (Z_lt_dec j (Z.max (zlen d) (p + zlen ys))).
    + unfold ix at 1. rewrite nth_map_seq by lia. cbv zeta. rewrite Z2Nat.id by lia. reflexivity.
    + rewrite ix_over.
      * replace ((p <=? j) && (j <? p + zlen ys)) with false by lia. symmetry. apply ix_over. lia.
      * pose proof (zlen_nonneg _ d). unfold zlen at 1. rewrite map_length, seq_length. lia.
Qed.
Lemma zlen_put_in : forall d p xs, 0 <= p -> p + zlen xs <= zlen d -> zlen (put d p xs) = zlen d.
Proof.
  intros d p xs Hp H. destruct xs as [|x xs]; [reflexivity|]. rewrite zlen_put by (auto; discriminate). lia.
Qed.
Lemma zlen_sub : forall d p n, 0 <= p <= zlen d -> 0 <= n -> zlen (sub d p n) = Z.min n (zlen d - p).
Proof. intros d p n Hp Hn. unfold sub, zlen in *. rewrite firstn_length, skipn_length. lia. Qed.
Lemma zlen_sub_le : forall d p n, 0 <= n -> zlen (sub d p n) <= n.
Proof. intros d p n Hn. unfold sub, zlen in *. rewrite firstn_length, skipn_length. lia. Qed.
Lemma ix_sub : forall d p n j, 0 <= p -> 0 <= j < n -> ix (sub d p n) j = ix d (p + j).
Proof. intros d p n j Hp Hj. unfold sub. rewrite ix_firstn by lia. rewrite ix_skipn by lia. reflexivity. Qed.
Lemma ix_overwrite : forall c p xs j, 0 <= p <= zlen c -> 0 <= j ->
  ix (overwrite c p xs) j = if (p <=? j) && (j <? p + zlen xs) then ix xs (j - p) else ix c j.
Proof.
  intros c p xs j Hp Hj. unfold overwrite. pose proof (zlen_nonneg _ xs). rewrite ix_app by lia. rewrite zlen_firstn by lia.
  destruct (j <? p) eqn:E1.
  - rewrite ix_firstn by lia. replace ((p <=? j) && (j <? p + zlen xs)) with false by lia. reflexivity.
  - rewrite ix_app by lia. destruct (j - p <? zlen xs) eqn:E2.
    + replace ((p <=? j) && (j <? p + zlen xs)) with true by lia. reflexivity.
    + rewrite ix_skipn by lia. replace ((p <=? j) && (j <? p + zlen xs)) with false by lia. f_equal. lia.
Qed.
Lemma zlen_overwrite : forall c p xs, 0 <= p <= zlen c -> zlen (overwrite c p xs) = Z.max (zlen c) (p + zlen xs).
Proof.
  intros c p xs Hp. unfold overwrite. rewrite !zlen_app, zlen_firstn by lia. pose proof (zlen_nonneg _ xs).
  unfold zlen in *. rewrite skipn_length. lia.
Qed.

(** * Invariant *)
Definition aligned (x : Z) : Prop := x mod BufSize = 0.
Record Inv (f : file) (c : list Z) (ids : list nat) : Prop := {
  I_len : zlen c = flen f;
  I_slots : slots f = map Some ids ++ repeat None (NumBufs - length ids);
  I_n : (length ids <= NumBufs)%nat;
  I_nodup : NoDup ids;
  I_heap : forall b, In b ids -> (b < length (heap f))%nat;
  I_data : forall b, In b ids -> zlen (b_data (bget f b)) = BufSize;
  I_buf : forall b, In b ids -> b_org (bget f b) <> -1 ->
     0 <= b_org (bget f b) <= flen f /\ aligned (b_org (bget f b)) /\
     b_size (bget f b) = Z.min BufSize (flen f - b_org (bget f b)) /\
     (forall j, 0 <= j < b_size (bget f b) -> ix (b_data (bget f b)) j = ix c (b_org (bget f b) + j));
  I_clean : forall b, In b ids -> b_org (bget f b) = -1 -> b_chg (bget f b) = false;
  I_org : forall b1 b2, In b1 ids -> In b2 ids -> b_org (bget f b1) <> -1 -> b_org (bget f b1) = b_org (bget f b2) -> b1 = b2;
  I_det : forall b, ~ In b ids -> b_org (bget f b) = -1;
  I_sw : -1 <= swapper f < Z.of_nat NumBufs;
  I_cov : forall j, 0 <= j < flen f ->
     (forall b, In b ids -> b_chg (bget f b) = true -> ~ (b_org (bget f b) <= j < b_org (bget f b) + b_size (bget f b))) ->
     j < zlen (disk f) /\ ix (disk f) j = ix c j;
  I_disk : zlen (disk f) <= flen f;
  I_fd : fd f = true -> fpos f = dpos f;
  I_nofd : fd f = false -> disk f = [] }.

Lemma nth_set_nth : forall A n m (x d : A) l, (n < length l)%nat ->
  nth m (set_nth n x l) d = if Nat.eqb m n then x else nth m l d.
Proof.
  induction n as [|n IH]; intros m x d [|y l] H; simpl in *; try lia; destruct m; simpl; auto.
  apply IH. lia.
Qed.
Lemma bget_bset : forall f b x b', (b < length (heap f))%nat ->
  bget (bset f b x) b' = if Nat.eqb b' b then x else bget f b'.
Proof. intros. unfold bget, bset. cbn [heap]. apply nth_set_nth. auto. Qed.

Ltac fcbn := cbn [heap slots flen fpos swapper fd disk dpos log b_chg b_org b_size b_data bget].

(** bget only depends on the heap. *)
Lemma bget_heap : forall f g b, heap f = heap g -> bget f b = bget g b.
Proof. intros f g b H. unfold bget. rewrite H. reflexivity. Qed.

Lemma Inv_Create : forall f c ids, Inv f c ids -> Inv (Create f) c ids /\ fd (Create f) = true /\ heap (Create f) = heap f /\
  flen (Create f) = flen f /\ disk (Create f) = disk f.
Proof.
  intros f c ids H. unfold Create. destruct (fd f) eqn:E; [auto|].
  destruct H. pose proof (I_nofd0 E) as D.
  split; [|fcbn; rewrite D; auto].
  constructor; auto; fcbn; auto; try discriminate.
  - intros j Hj Hc. rewrite <- D. apply I_cov0; auto.
  - rewrite <- D. auto.
Qed.

Lemma block_disjoint : forall a b j, aligned a -> aligned b -> a <> b ->
  a <= j < a + BufSize -> b <= j < b + BufSize -> False.
Proof. intros a b j. unfold aligned, BufSize. lia. Qed.

Lemma block_sep : forall a b, aligned a -> aligned b -> a <> b -> a + BufSize <= b \/ b + BufSize <= a.
Proof. intros a b. unfold aligned, BufSize. lia. Qed.

(** Flush: the buffer is clean afterwards, nothing else changes. *)
Lemma Flush_spec : forall f c ids b, Inv f c ids -> In b ids ->
  Inv (Flush f b) c ids /\ b_chg (bget (Flush f b) b) = false /\
  length (heap (Flush f b)) = length (heap f) /\ flen (Flush f b) = flen f /\ slots (Flush f b) = slots f /\
  (fd f = true -> fd (Flush f b) = true) /\
  (forall b', b_org (bget (Flush f b) b') = b_org (bget f b') /\ b_size (bget (Flush f b) b') = b_size (bget f b') /\
     b_data (bget (Flush f b) b') = b_data (bget f b') /\ (b_chg (bget f b') = false -> b_chg (bget (Flush f b) b') = false)).
Proof.
  intros f c ids b H Hb. unfold Flush. destruct (b_chg (bget f b)) eqn:E.
  2: { split; [auto|]. split; [auto|]. split; [auto|]. split; [auto|]. split; [auto|]. split; auto. }
  destruct (Inv_Create f c ids H) as (H1 & Hfd & Hh & Hl & Hd).
  set (x := bget f b) in *. set (g := Create f) in *.
  assert (Hx : bget g b = x) by (apply bget_heap; auto).
  assert (Hlt : (b < length (heap g))%nat) by (apply (I_heap _ _ _ H1); auto).
  set (g1 := if negb (b_org x =? fpos g) then os_seek g (b_org x) else g).
  assert (G1 : heap g1 = heap g /\ slots g1 = slots g /\ flen g1 = flen g /\ swapper g1 = swapper g /\ fd g1 = true /\
     disk g1 = disk g /\ dpos g1 = b_org x).
  { unfold g1. destruct (b_org x =? fpos g) eqn:E1; cbn [negb]; unfold os_seek; fcbn; repeat split; auto.
    rewrite <- (I_fd _ _ _ H1) by auto. lia. }
  destruct G1 as (G1 & G2 & G3 & G4 & G5 & G6 & G7).
  set (w := firstn (Z.to_nat (b_size x)) (b_data x)).
  assert (Ox : b_org x <> -1). { intro Q. pose proof (I_clean _ _ _ H b Hb Q) as Q2. fold x in Q2. congruence. }
  destruct (I_buf _ _ _ H b Hb Ox) as (B1 & B2 & B3 & B4). fold x in B1, B2, B3, B4.
  pose proof (I_data _ _ _ H b Hb) as BD. fold x in BD.
  assert (Sz : 0 <= b_size x <= BufSize). { rewrite B3. unfold BufSize. lia. }
  assert (Lw : zlen w = b_size x) by (unfold w; apply zlen_firstn; lia).
  set (g2 := bset (with_pos (os_write g1 w) (b_org x + b_size x)) b (mkbuf false (b_org x) (b_size x) (b_data x))).
  assert (Hg2 : forall b', bget g2 b' = if Nat.eqb b' b then mkbuf false (b_org x) (b_size x) (b_data x) else bget f b').
  { intro b'. unfold g2. rewrite bget_bset by (unfold with_pos, os_write; fcbn; rewrite G1; auto).
    destruct (Nat.eqb b' b); auto. unfold bget, with_pos, os_write. fcbn. rewrite G1, Hh. reflexivity. }
  assert (Horg : forall b', b_org (bget g2 b') = b_org (bget f b') /\ b_size (bget g2 b') = b_size (bget f b') /\
     b_data (bget g2 b') = b_data (bget f b') /\ (b_chg (bget f b') = false -> b_chg (bget g2 b') = false)).
  { intro b'. rewrite Hg2. destruct (Nat.eqb b' b) eqn:Eb; [|auto].
    apply Nat.eqb_eq in Eb. subst b'. fold x. fcbn. auto. }
  assert (F2 : flen g2 = flen f) by (unfold g2, bset, with_pos, os_write; fcbn; lia).
  assert (D2 : disk g2 = put (disk f) (b_org x) w).
  { unfold g2, bset, with_pos, os_write; fcbn. rewrite G6, G7, Hd. reflexivity. }
  assert (S2 : slots g2 = slots f).
  { unfold g2, bset, with_pos, os_write; fcbn. rewrite G2. unfold g, Create. destruct (fd f); reflexivity. }
  assert (L2 : length (heap g2) = length (heap f)).
  { unfold g2, bset, with_pos, os_write; fcbn. rewrite set_nth_length, G1, Hh. reflexivity. }
  assert (Hcb : b_chg (bget g2 b) = false) by (rewrite Hg2, Nat.eqb_refl; reflexivity).
  split; [|split; [exact Hcb|split; [exact L2|split; [exact F2|split; [exact S2|split; [|exact Horg]]]]]].
  2:{ intros _. unfold g2, bset, with_pos, os_write; fcbn. auto. }
  constructor.
  - rewrite F2. apply (I_len _ _ _ H).
  - rewrite S2. apply (I_slots _ _ _ H).
  - apply (I_n _ _ _ H).
  - apply (I_nodup _ _ _ H).
  - rewrite L2. apply (I_heap _ _ _ H).
  - intros b' Hb'. destruct (Horg b') as (O1 & O2 & O3 & O4). rewrite O3. apply (I_data _ _ _ H); auto.
  - intros b' Hb'. destruct (Horg b') as (O1 & O2 & O3 & O4). rewrite O1, O2, O3, F2. apply (I_buf _ _ _ H); auto.
  - intros b' Hb' Q. destruct (Horg b') as (O1 & O2 & O3 & O4). apply O4. apply (I_clean _ _ _ H); auto. congruence.
  - intros b1 b2 In1 In2. destruct (Horg b1) as (O1 & _). destruct (Horg b2) as (O2 & _). rewrite O1, O2. apply (I_org _ _ _ H); auto.
  - intros b' Hb'. destruct (Horg b') as (O1 & _). rewrite O1. apply (I_det _ _ _ H); auto.
  - replace (swapper g2) with (swapper f). apply (I_sw _ _ _ H). unfold g2, bset, with_pos, os_write; fcbn. rewrite G4.
    unfold g, Create. destruct (fd f); reflexivity.
  - intros j Hj Hc. rewrite D2. rewrite F2 in Hj. rewrite ix_put by lia. rewrite Lw.
    destruct ((b_org x <=? j) && (j <? b_org x + b_size x)) eqn:Ej.
    + split.
      * rewrite zlen_put; [lia|lia|]. intro Q. rewrite Q, zlen_nil in Lw. lia.
      * unfold w. rewrite ix_firstn by lia. rewrite B4 by lia. f_equal. lia.
    + destruct (I_cov _ _ _ H j Hj) as [C1 C2].
      { intros b' Hb' Q R. destruct (Nat.eq_dec b' b) as [->|Nb].
        - fold x in R. lia.
        - apply (Hc b' Hb'); rewrite Hg2; replace (Nat.eqb b' b) with false by (symmetry; apply Nat.eqb_neq; auto); auto. }
      split; auto. destruct w eqn:Ew; [simpl; auto|]. rewrite zlen_put by (lia || discriminate). lia.
  - rewrite D2, F2. destruct w eqn:Ew; [simpl; apply (I_disk _ _ _ H)|].
    rewrite zlen_put by (lia || discriminate). rewrite Lw. pose proof (I_disk _ _ _ H). lia.
  - intros _. unfold g2, bset, with_pos, os_write; fcbn. rewrite G7, Lw. reflexivity.
  - intro Q. exfalso. unfold g2, bset, with_pos, os_write in Q; cbn [fd] in Q. congruence.
Qed.

(** load: block org into an attached, clean buffer. *)
Lemma load_spec : forall f c ids b org, Inv f c ids -> In b ids -> b_chg (bget f b) = false \/ b_org (bget f b) = org ->
  0 <= org <= flen f -> aligned org ->
  (forall b', In b' ids -> b_org (bget f b') = org -> b' = b) ->
  let g := load f b org in
  Inv g c ids /\ b_org (bget g b) = org /\ flen g = flen f /\ length (heap g) = length (heap f).
Proof.
  intros f c ids b org H Hb Hch Ho Hm Hu g. unfold g, load. clear g.
  destruct (b_org (bget f b) =? org) eqn:E.
  { split; auto. split; [lia|]. auto. }
  assert (Hc0 : b_chg (bget f b) = false) by (destruct Hch; auto; lia).
  assert (Hlt : (b < length (heap f))%nat) by (apply (I_heap _ _ _ H); auto).
  pose proof (I_data _ _ _ H b Hb) as BD.
  destruct (org =? flen f) eqn:E1.
  - set (x := mkbuf false org 0 (b_data (bget f b))). set (g := bset f b x).
    assert (Hg : forall b', bget g b' = if Nat.eqb b' b then x else bget f b') by (intro; apply bget_bset; auto).
    assert (Hne : forall b', b' <> b -> bget g b' = bget f b').
    { intros b' N. rewrite Hg. replace (Nat.eqb b' b) with false by (symmetry; apply Nat.eqb_neq; auto). auto. }
    assert (Heq : bget g b = x) by (rewrite Hg, Nat.eqb_refl; auto).
    split; [|split; [rewrite Heq; reflexivity|split; [reflexivity|apply set_nth_length]]].
    constructor; try (apply H).
    + intros b' Hb'. unfold g, bset. fcbn. rewrite set_nth_length. apply (I_heap _ _ _ H); auto.
    + intros b' Hb'. destruct (Nat.eq_dec b' b) as [->|N]; [rewrite Heq; auto|rewrite Hne by auto; apply (I_data _ _ _ H); auto].
    + intros b' Hb'. destruct (Nat.eq_dec b' b) as [->|N].
      * rewrite Heq. unfold x. fcbn. intros _. refine (conj _ (conj _ (conj _ _))); auto; try (cbn; lia).
        change (flen g) with (flen f). unfold BufSize. lia.
      * rewrite Hne by auto. apply (I_buf _ _ _ H); auto.
    + intros b' Hb'. destruct (Nat.eq_dec b' b) as [->|N]; [rewrite Heq; auto|rewrite Hne by auto; apply (I_clean _ _ _ H); auto].
    + intros b1 b2 In1 In2. destruct (Nat.eq_dec b1 b) as [->|N1]; destruct (Nat.eq_dec b2 b) as [->|N2]; auto;
        rewrite ?Heq, ?Hne by auto; unfold x; fcbn.
      * intros _ Q. exfalso. apply N2. apply Hu; auto.
      * intros _ Q. exfalso. apply N1. apply Hu; auto.
      * apply (I_org _ _ _ H); auto.
    + intros b' Hb'. rewrite Hne by congruence. apply (I_det _ _ _ H); auto.
    + intros j Hj Hc. apply (I_cov _ _ _ H j Hj). intros b' Hb' Q. destruct (Nat.eq_dec b' b) as [->|N]; [congruence|].
      specialize (Hc b' Hb'). rewrite Hne in Hc by auto. auto.
  - destruct (Inv_Create f c ids H) as (H1 & Hfd & Hh & Hl & Hd). set (f1 := Create f) in *.
    set (g1 := if negb (fpos f1 =? org) then os_seek f1 org else f1).
    assert (G1 : heap g1 = heap f1 /\ slots g1 = slots f1 /\ flen g1 = flen f1 /\ swapper g1 = swapper f1 /\ fd g1 = true /\
       disk g1 = disk f1 /\ dpos g1 = org).
    { unfold g1. destruct (fpos f1 =? org) eqn:E2; cbn [negb]; unfold os_seek; fcbn; repeat split; auto.
      rewrite <- (I_fd _ _ _ H1) by auto. lia. }
    destruct G1 as (G1 & G2 & G3 & G4 & G5 & G6 & G7).
    unfold os_read. rewrite G6, G7, Hd. set (xs := sub (disk f) org BufSize).
    assert (Slots : slots f1 = slots f) by (unfold f1, Create; destruct (fd f); reflexivity).
    assert (Sw : swapper f1 = swapper f) by (unfold f1, Create; destruct (fd f); reflexivity).
    assert (Cov : forall j, org <= j < org + BufSize -> j < flen f -> j < zlen (disk f) /\ ix (disk f) j = ix c j).
    { intros j Hj Hjl. apply (I_cov _ _ _ H); [lia|]. intros b' Hb' Q R.
      assert (O : b_org (bget f b') <> -1). { intro Z1. rewrite (I_clean _ _ _ H b' Hb' Z1) in Q. discriminate. }
      destruct (I_buf _ _ _ H b' Hb' O) as (B1 & B2 & B3 & B4).
      destruct (Z.eq_dec (b_org (bget f b')) org) as [Eo|No].
      - pose proof (Hu b' Hb' Eo). subst b'. congruence.
      - apply (block_disjoint (b_org (bget f b')) org j); auto. rewrite B3 in R. lia. }
    assert (Lx : zlen xs = Z.min BufSize (flen f - org)).
    { destruct (Cov (Z.min (org + BufSize) (flen f) - 1)) as [C1 _]; [unfold BufSize; lia|unfold BufSize; lia|].
      unfold xs. rewrite zlen_sub by (unfold BufSize in *; lia). pose proof (I_disk _ _ _ H). unfold BufSize in *. lia. }
    set (x := mkbuf false org (zlen xs) (put (b_data (bget f b)) 0 xs)).
    set (g := bset (with_pos _ _) b _).
    assert (Hg : forall b', bget g b' = if Nat.eqb b' b then x else bget f b').
    { intro b'. unfold g. rewrite bget_bset by (unfold with_pos; fcbn; rewrite G1, Hh; auto).
      destruct (Nat.eqb b' b); auto. unfold bget, with_pos. fcbn. rewrite G1, Hh. auto. }
    assert (Hne : forall b', b' <> b -> bget g b' = bget f b').
    { intros b' N. rewrite Hg. replace (Nat.eqb b' b) with false by (symmetry; apply Nat.eqb_neq; auto). auto. }
    assert (Heq : bget g b = x) by (rewrite Hg, Nat.eqb_refl; auto).
    assert (Fl : flen g = flen f) by (unfold g, bset, with_pos; fcbn; congruence).
    assert (Hp : length (heap g) = length (heap f)).
    { unfold g, bset, with_pos; fcbn. rewrite set_nth_length, G1, Hh. reflexivity. }
    assert (Dk : disk g = disk f) by (unfold g, bset, with_pos; fcbn; congruence).
    split; [|split; [rewrite Heq; reflexivity|split; auto]].
    constructor; try (rewrite Fl || idtac).
    + apply (I_len _ _ _ H).
    + unfold g, bset, with_pos; fcbn. rewrite G2, Slots. apply (I_slots _ _ _ H).
    + apply (I_n _ _ _ H).
    + apply (I_nodup _ _ _ H).
    + rewrite Hp. apply (I_heap _ _ _ H).
    + intros b' Hb'. destruct (Nat.eq_dec b' b) as [->|N]; [|rewrite Hne by auto; apply (I_data _ _ _ H); auto].
      rewrite Heq. unfold x. fcbn. rewrite zlen_put_in; auto; lia.
    + intros b' Hb'. destruct (Nat.eq_dec b' b) as [->|N].
      * rewrite Heq. unfold x. fcbn. intros _. refine (conj _ (conj _ (conj _ _))); auto.
        intros j Hj. rewrite ix_put by lia. replace ((0 <=? j) && (j <? 0 + zlen xs)) with true by lia.
        replace (j - 0) with j by lia. unfold xs. rewrite ix_sub by (unfold BufSize in *; lia).
        apply Cov; unfold BufSize in *; lia.
      * rewrite Hne by auto. apply (I_buf _ _ _ H); auto.
    + intros b' Hb'. destruct (Nat.eq_dec b' b) as [->|N]; [rewrite Heq; auto|rewrite Hne by auto; apply (I_clean _ _ _ H); auto].
    + intros b1 b2 In1 In2. destruct (Nat.eq_dec b1 b) as [->|N1]; destruct (Nat.eq_dec b2 b) as [->|N2]; auto;
        rewrite ?Heq, ?Hne by auto; unfold x; fcbn.
      * intros _ Q. exfalso. apply N2. apply Hu; auto.
      * intros _ Q. exfalso. apply N1. apply Hu; auto.
      * apply (I_org _ _ _ H); auto.
    + intros b' Hb'. rewrite Hne by congruence. apply (I_det _ _ _ H); auto.
    + unfold g, bset, with_pos; fcbn. rewrite G4, Sw. apply (I_sw _ _ _ H).
    + intros j Hj Hc. rewrite Dk. apply (I_cov _ _ _ H j Hj). intros b' Hb' Q. destruct (Nat.eq_dec b' b) as [->|N]; [congruence|].
      specialize (Hc b' Hb'). rewrite Hne in Hc by auto. auto.
    + rewrite Dk. apply (I_disk _ _ _ H).
    + intros _. unfold g, bset, with_pos; fcbn. reflexivity.
    + intro Q. exfalso. unfold g, bset, with_pos in Q; cbn [fd] in Q. congruence.
Qed.

(** find_slot *)
Lemma find_slot_spec : forall h ids k org,
  let i := find_slot h (map Some ids ++ repeat None k) org in
  (exists b, nth_error ids i = Some b /\ b_org (nth b h buf0) = org) \/
  (i = length ids /\ forall b, In b ids -> b_org (nth b h buf0) <> org).
Proof.
  induction ids as [|b ids IH]; intros k org.
  - right. simpl. split; [|tauto]. destruct k; reflexivity.
  - cbn [map app find_slot]. destruct (org =? b_org (nth b h buf0)) eqn:E.
    + left. exists b. split; [reflexivity|lia].
    + destruct (IH k org) as [(b' & H1 & H2)|[H1 H2]].
      * left. exists b'. auto.
      * right. split; [cbn [length]; rewrite H1; reflexivity|]. intros b' [<-|Hb']; [lia|auto].
Qed.

Lemma pick_spec : forall f c ids org, Inv f c ids -> 0 <= org ->
  let '(g, b) := pick f org in
  exists ids', Inv g c ids' /\ In b ids' /\ incl ids ids' /\ flen g = flen f /\
    (forall b', (b' < length (heap f))%nat -> In b' ids' -> In b' ids) /\
    (length (heap f) <= length (heap g))%nat /\
    (b_chg (bget g b) = false \/ b_org (bget g b) = org) /\
    (forall b', In b' ids' -> b_org (bget g b') = org -> b' = b).
Proof.
  intros f c ids org H Ho. unfold pick. rewrite (I_slots _ _ _ H).
  destruct (find_slot_spec (heap f) ids (NumBufs - length ids) org) as [(b & H1 & H2)|[H1 H2]].
  - set (i := find_slot _ _ _) in *.
    assert (Li : (i < length ids)%nat) by (apply nth_error_Some; congruence).
    pose proof (I_n _ _ _ H). replace (i <? NumBufs)%nat with true by (symmetry; apply Nat.ltb_lt; lia).
    assert (N : nth i (map Some ids ++ repeat None (NumBufs - length ids)) None = Some b).
    { rewrite app_nth1 by (rewrite map_length; auto). apply nth_error_nth. rewrite nth_error_map, H1. reflexivity. }
    rewrite N. exists ids.
    assert (Hb : In b ids) by (eapply nth_error_In; eauto).
    refine (conj H (conj Hb (conj (incl_refl _) (conj eq_refl (conj _ (conj _ (conj _ _))))))); auto.
    intros b' Hb' Q. apply (I_org _ _ _ H); auto; unfold bget in *; [lia|congruence].
  - rewrite H1. pose proof (I_n _ _ _ H) as In_.
    destruct (length ids <? NumBufs)%nat eqn:E.
    + apply Nat.ltb_lt in E.
      assert (N : nth (length ids) (map Some ids ++ repeat None (NumBufs - length ids)) None = None).
      { rewrite app_nth2 by (rewrite map_length; lia). rewrite map_length, Nat.sub_diag.
        destruct (NumBufs - length ids)%nat; reflexivity. }
      rewrite N. set (nb := length (heap f)). exists (ids ++ [nb]).
      set (g := mkfile _ _ _ _ _ _ _ _ _).
      assert (Nin : ~ In nb ids) by (intro Q; apply (I_heap _ _ _ H) in Q; unfold nb in Q; lia).
      assert (Hg : forall b', bget g b' = bget f b').
      { intro b'. unfold bget, g. fcbn. destruct (lt_eq_lt_dec b' nb) as [[L|L]|L]; unfold nb in *.
        - apply app_nth1; auto.
        - subst b'. rewrite app_nth2, Nat.sub_diag by lia. cbn [nth]. symmetry. apply nth_overflow. lia.
        - rewrite !nth_overflow; auto; rewrite ?app_length; cbn [length]; lia. }
      assert (Bn : bget f nb = buf0) by (unfold bget, nb; apply nth_overflow; lia).
      assert (HI : Inv g c (ids ++ [nb])).
      { constructor; try apply H.
        - unfold g. fcbn. replace (NumBufs - length ids)%nat with (S (NumBufs - length (ids ++ [nb])))
            by (rewrite app_length; cbn [length]; lia).
          cbn [repeat]. rewrite set_nth_app by (rewrite map_length; auto).
          rewrite map_app, <- app_assoc. reflexivity.
        - rewrite app_length; cbn [length]; lia.
        - apply NoDup_Add with (a := nb) (l := ids). { rewrite <- (app_nil_r ids) at 1. apply Add_app. }
          split; auto. apply (I_nodup _ _ _ H).
        - intros b Hb. unfold g. fcbn. rewrite app_length. cbn [length]. apply in_app_or in Hb. destruct Hb as [Hb|[<-|[]]].
          + apply (I_heap _ _ _ H) in Hb. lia.
          + unfold nb. lia.
        - intros b Hb. rewrite Hg. apply in_app_or in Hb. destruct Hb as [Hb|[<-|[]]].
          + apply (I_data _ _ _ H); auto.
          + rewrite Bn. unfold buf0. fcbn. unfold zlen. rewrite repeat_length. unfold BufSize. lia.
        - intros b Hb. rewrite Hg. apply in_app_or in Hb. destruct Hb as [Hb|[<-|[]]].
          + apply (I_buf _ _ _ H); auto.
          + rewrite Bn. unfold buf0. fcbn. congruence.
        - intros b Hb. rewrite Hg. apply in_app_or in Hb. destruct Hb as [Hb|[<-|[]]].
          + apply (I_clean _ _ _ H); auto.
          + rewrite Bn. reflexivity.
        - intros b1 b2 In1 In2. rewrite !Hg. apply in_app_or in In1. apply in_app_or in In2.
          destruct In1 as [In1|[<-|[]]]; destruct In2 as [In2|[<-|[]]]; auto.
          + apply (I_org _ _ _ H); auto.
          + rewrite Bn. unfold buf0. fcbn. congruence.
          + rewrite Bn. unfold buf0. fcbn. congruence.
        - intros b Hb. rewrite Hg. apply (I_det _ _ _ H). intro Q. apply Hb. apply in_or_app. auto.
        - intros j Hj Hc. apply (I_cov _ _ _ H j Hj). intros b Hb Q. specialize (Hc b ltac:(apply in_or_app; auto)).
          rewrite Hg in Hc. auto. }
      split; auto. split; [apply in_or_app; right; left; auto|]. split; [intros z Hz; apply in_or_app; auto|].
      split; [reflexivity|]. split.
      { intros b' Hl Hb'. apply in_app_or in Hb'. destruct Hb' as [Hb'|[<-|[]]]; auto. unfold nb in Hl. lia. }
      split; [unfold g; fcbn; rewrite app_length; lia|].
      split; [left; rewrite Hg, Bn; reflexivity|].
      intros b' Hb' Q. rewrite Hg in Q. apply in_app_or in Hb'. destruct Hb' as [Hb'|[<-|[]]]; auto.
      exfalso. apply (H2 b' Hb'). auto.
    + apply Nat.ltb_ge in E. assert (L4 : length ids = NumBufs) by lia.
      set (s := (swapper f + 1) mod Z.of_nat NumBufs).
      assert (Hs : 0 <= s < Z.of_nat NumBufs) by (apply Z.mod_pos_bound; unfold NumBufs; lia).
      fcbn. set (g := mkfile _ _ _ _ _ _ _ _ _).
      destruct (nth_error ids (Z.to_nat s)) as [b|] eqn:Eb; [|apply nth_error_None in Eb; lia].
      assert (N : nth (Z.to_nat s) (map Some ids ++ repeat None (NumBufs - length ids)) None = Some b).
      { rewrite app_nth1 by (rewrite map_length; lia). apply nth_error_nth. rewrite nth_error_map, Eb. reflexivity. }
      rewrite N. assert (Hb : In b ids) by (eapply nth_error_In; eauto).
      assert (HI : Inv g c ids).
      { destruct H; constructor; auto. unfold g. fcbn. lia. }
      destruct (Flush_spec g c ids b HI Hb) as (F1 & F2 & F3 & F4 & F5 & F6 & F7).
      exists ids. split; auto. split; auto. split; [apply incl_refl|]. split; [rewrite F4; reflexivity|]. split; auto.
      split; [rewrite F3; unfold g; fcbn; auto|]. split; [left; auto|].
      intros b' Hb' Q. exfalso. destruct (F7 b') as (O1 & _). rewrite O1 in Q. apply (H2 b' Hb'). exact Q.
Qed.

(** The position of a rider, and when a rider is usable. *)
Definition rpos (r : rider) : Z := r_org r + r_offset r.
Record Rok (f : file) (ids : list nat) (r : rider) : Prop := {
  R_heap : (r_buf r < length (heap f))%nat;
  R_org : 0 <= r_org r; R_mod : aligned (r_org r);
  R_off : 0 <= r_offset r <= BufSize;
  R_pos : In (r_buf r) ids -> rpos r <= flen f }.

Definition ext (f : file) (ids : list nat) (g : file) (ids' : list nat) : Prop :=
  incl ids ids' /\ (length (heap f) <= length (heap g))%nat /\
  (forall b, (b < length (heap f))%nat -> In b ids' -> In b ids).
Lemma ext_refl : forall f ids, ext f ids f ids.
Proof. intros. split; [apply incl_refl|]. auto. Qed.
Lemma ext_trans : forall f i g j h k, ext f i g j -> ext g j h k -> ext f i h k.
Proof.
  intros f i g j h k (A1 & A2 & A3) (B1 & B2 & B3). split; [eapply incl_tran; eauto|]. split; [lia|].
  intros b Hb Hk. apply A3; auto. apply B3; auto. lia.
Qed.
Lemma Rok_ext : forall f ids g ids' r, Rok f ids r -> ext f ids g ids' -> flen f <= flen g -> Rok g ids' r.
Proof.
  intros f ids g ids' r [A1 A2 A3 A4 A5] (B1 & B2 & B3) L. constructor; auto; [lia|].
  intro Hi. specialize (A5 (B3 _ A1 Hi)). lia.
Qed.

Lemma Set_spec : forall f c ids pos, Inv f c ids ->
  let '(g, r) := Set_ f pos in
  exists ids', Inv g c ids' /\ ext f ids g ids' /\ flen g = flen f /\ Rok g ids' r /\ In (r_buf r) ids' /\
    b_org (bget g (r_buf r)) = r_org r /\ r_offset r < BufSize /\
    rpos r = Z.max 0 (Z.min pos (flen f)) /\ r_eof r = false /\ r_res r = 0.
Proof.
  intros f c ids pos H. unfold Set_.
  set (p := if pos >? flen f then flen f else if pos <? 0 then 0 else pos).
  assert (Fl : 0 <= flen f) by (rewrite <- (I_len _ _ _ H); apply zlen_nonneg).
  assert (Hp : p = Z.max 0 (Z.min pos (flen f))).
  { unfold p. destruct (pos >? flen f) eqn:E1; [lia|]. destruct (pos <? 0) eqn:E2; lia. }
  assert (Ho : 0 <= p - p mod BufSize <= flen f /\ aligned (p - p mod BufSize) /\ 0 <= p mod BufSize < BufSize).
  { unfold aligned, BufSize. lia. }
  destruct Ho as (O1 & O2 & O3).
  pose proof (pick_spec f c ids (p - p mod BufSize) H ltac:(lia)) as P.
  destruct (pick f (p - p mod BufSize)) as [g b].
  destruct P as (ids' & P1 & P2 & P3 & P4 & P5 & P6 & P7 & P8).
  destruct (load_spec g c ids' b (p - p mod BufSize) P1 P2 P7 ltac:(lia) O2 P8) as (L1 & L2 & L3 & L4).
  exists ids'. cbn [r_buf r_org r_offset r_eof r_res]. unfold rpos. cbn [r_org r_offset].
  split; auto. split; [split; [auto|split; [lia|auto]]|]. split; [lia|]. split.
  { constructor; cbn [r_buf r_org r_offset]; auto; try lia.
    - rewrite L4. apply (I_heap _ _ _ P1); auto.
    - intros _. unfold rpos. cbn [r_org r_offset]. lia. }
  split; auto. split; auto. split; [lia|]. split; [lia|]. auto.
Qed.

(** "If the rider's buffer no longer holds its block, Set it again": the common prologue. *)
Lemma reset_spec : forall f c ids r (q : bool), Inv f c ids -> Rok f ids r ->
  let '(g, r') := if negb (r_org r =? b_org (bget f (r_buf r))) || q then Set_ f (r_org r + r_offset r) else (f, r) in
  exists ids', Inv g c ids' /\ ext f ids g ids' /\ flen g = flen f /\ Rok g ids' r' /\ In (r_buf r') ids' /\
    b_org (bget g (r_buf r')) = r_org r' /\ rpos r' = Z.min (rpos r) (flen f) /\
    eof_kept (r_eof r) (r_eof r') /\ res_kept (r_res r) (r_res r') /\
    (q = (r_offset r >=? BufSize) -> r_offset r' < BufSize).
Proof.
  intros f c ids r q H R. destruct (negb (r_org r =? b_org (bget f (r_buf r))) || q) eqn:E.
  - pose proof (Set_spec f c ids (r_org r + r_offset r) H) as S. destruct (Set_ f (r_org r + r_offset r)) as [g r'].
    destruct S as (ids' & S1 & S2 & S3 & S4 & S5 & S6 & S7 & S8 & S9 & S10).
    exists ids'. split; [auto|]. split; [auto|]. split; [auto|]. split; [auto|]. split; [auto|]. split; [auto|].
    split; [|split; [|split; [|auto]]].
    + rewrite S8. destruct R. unfold rpos. pose proof (zlen_nonneg _ c). rewrite (I_len _ _ _ H) in H0. lia.
    + right. auto.
    + right. auto.
  - exists ids. assert (Eo : r_org r = b_org (bget f (r_buf r))) by (destruct (r_org r =? b_org (bget f (r_buf r))) eqn:E1; [lia|discriminate]).
    assert (Hin : In (r_buf r) ids).
    { destruct (in_dec Nat.eq_dec (r_buf r) ids); auto. pose proof (I_det _ _ _ H _ n). destruct R. lia. }
    split; auto. split; [apply ext_refl|]. split; auto. split; auto. split; auto. split; auto.
    split; [pose proof (R_pos _ _ _ R Hin); lia|]. split; [left; auto|]. split; [left; auto|].
    intros ->. destruct (r_offset r >=? BufSize) eqn:Eq; [rewrite orb_true_r in E; discriminate|lia].
Qed.

(** Facts about the buffer of a freshly checked rider. *)
Lemma cur_buf : forall f c ids r, Inv f c ids -> Rok f ids r -> In (r_buf r) ids -> b_org (bget f (r_buf r)) = r_org r ->
  b_size (bget f (r_buf r)) = Z.min BufSize (flen f - r_org r) /\ r_offset r <= b_size (bget f (r_buf r)) /\
  zlen (b_data (bget f (r_buf r))) = BufSize /\
  (forall j, 0 <= j < b_size (bget f (r_buf r)) -> ix (b_data (bget f (r_buf r))) j = ix c (r_org r + j)).
Proof.
  intros f c ids r H R Hi Ho. destruct R as [R1 R2 R3 R4 R5]. specialize (R5 Hi).
  destruct (I_buf _ _ _ H _ Hi ltac:(lia)) as (B1 & B2 & B3 & B4). rewrite Ho in *. unfold rpos in R5.
  split; auto. split; [lia|]. split; [apply (I_data _ _ _ H); auto|]. auto.
Qed.

Lemma Read_spec : forall f c ids r, Inv f c ids -> Rok f ids r ->
  exists x g r' ids', Read f r = Ok (x, g, r') /\ Inv g c ids' /\ ext f ids g ids' /\ flen g = flen f /\ Rok g ids' r' /\
    res_kept (r_res r) (r_res r') /\
    (rpos r < flen f /\ x = ix c (rpos r) /\ rpos r' = rpos r + 1 /\ eof_kept (r_eof r) (r_eof r') \/
     flen f <= rpos r /\ x = 0 /\ rpos r' = flen f /\ r_eof r' = true).
Proof.
  intros f c ids r H R. unfold Read. pose proof (reset_spec f c ids r false H R) as P. rewrite orb_false_r in P.
  destruct (if negb (r_org r =? b_org (bget f (r_buf r))) then Set_ f (r_org r + r_offset r) else (f, r)) as [g r'].
  destruct P as (ids' & P1 & P2 & P3 & P4 & P5 & P6 & P7 & P8 & P9 & _).
  destruct (cur_buf g c ids' r' P1 P4 P5 P6) as (C1 & C2 & C3 & C4).
  unfold Assert. replace (r_offset r' <=? b_size (bget g (r_buf r'))) with true by lia. cbn [bind].
  destruct P4 as [Q1 Q2 Q3 Q4 Q5]. pose proof (Q5 P5) as Q6.
  destruct (r_offset r' <? b_size (bget g (r_buf r'))) eqn:E1.
  - do 3 eexists. exists ids'. split; [reflexivity|]. split; auto. split; auto. split; auto. unfold rpos in *. cbn [r_org r_offset r_eof r_res r_buf].
    split; [|split; auto].
    + constructor; unfold rpos; cbn [r_buf r_org r_offset]; auto; lia.
    + left. split; [lia|]. split; [rewrite C4 by lia; f_equal; lia|]. split; [lia|]. auto.
  - destruct (r_org r' + r_offset r' <? flen g) eqn:E2.
    + pose proof (Set_spec g c ids' (r_org r' + r_offset r') P1) as S. destruct (Set_ g (r_org r' + r_offset r')) as [g2 r2].
      destruct S as (ids2 & S1 & S2 & S3 & S4 & S5 & S6 & S7 & S8 & S9 & S10).
      destruct (cur_buf g2 c ids2 r2 S1 S4 S5 S6) as (D1 & D2 & D3 & D4).
      assert (Off : r_offset r' = BufSize) by lia.
      destruct S4 as [T1 T2 T3 T4 T5]. pose proof (T5 S5) as T6.
      assert (Z2 : r_offset r2 = 0 /\ r_org r2 = r_org r' + BufSize).
      { unfold rpos in S8. rewrite Off in S8. clear - S7 S8 T2 Q2 T3 Q3 T4 E2 P3 Off. unfold aligned, BufSize in *. lia. }
      destruct Z2 as [Z2 Z3].
      do 3 eexists. exists ids2. split; [reflexivity|]. split; auto. split; [eapply ext_trans; eauto|]. split; [lia|].
      unfold rpos in *. cbn [r_org r_offset r_eof r_res r_buf]. split; [|split].
      * constructor; unfold rpos; cbn [r_buf r_org r_offset]; auto; unfold BufSize in *; lia.
      * right. auto.
      * left. split; [lia|]. split; [|split; [lia|right; auto]].
        rewrite D4 by (unfold BufSize in *; lia). f_equal. lia.
    + do 3 eexists. exists ids'. split; [reflexivity|]. split; auto. split; auto. split; auto. unfold rpos in *. cbn [r_org r_offset r_eof r_res r_buf].
      split; [|split; auto].
      * constructor; unfold rpos; cbn [r_buf r_org r_offset]; auto; lia.
      * right. split; [lia|]. split; auto. split; [lia|]. auto.
Qed.

Lemma sub_app : forall d p n m, 0 <= p -> 0 <= n -> 0 <= m -> p + n + m <= zlen d -> sub d p n ++ sub d (p + n) m = sub d p (n + m).
Proof.
  intros d p n m Hp Hn Hm Hl. apply ix_ext.
  - rewrite zlen_app, !zlen_sub by lia. lia.
  - intros j Hj. rewrite zlen_app, !zlen_sub in Hj by lia. rewrite ix_app by lia. rewrite zlen_sub by lia.
    replace (Z.min n (zlen d - p)) with n by lia.
    destruct (j <? n) eqn:E; rewrite !ix_sub by lia; f_equal; lia.
Qed.
Lemma sub_eq : forall a b p q n, 0 <= p -> 0 <= q -> 0 <= n -> p + n <= zlen a -> q + n <= zlen b ->
  (forall j, 0 <= j < n -> ix a (p + j) = ix b (q + j)) -> sub a p n = sub b q n.
Proof.
  intros a b p q n Hp Hq Hn L1 L2 H. apply ix_ext.
  - rewrite !zlen_sub by lia. lia.
  - intros j Hj. rewrite zlen_sub in Hj by lia. rewrite !ix_sub by lia. apply H. lia.
Qed.
Lemma sub_nil : forall d p, sub d p 0 = [].
Proof. reflexivity. Qed.

Lemma readbytes_spec : forall fuel f c ids r acc n, Inv f c ids -> Rok f ids r -> 0 < n -> n < Z.of_nat fuel ->
  let q := Z.min (rpos r) (flen f) in let k := Z.min n (flen f - q) in
  exists g r' ids', readbytes_loop fuel f r acc n = Ok (acc ++ sub c q k, g, r') /\ Inv g c ids' /\ ext f ids g ids' /\
    flen g = flen f /\ Rok g ids' r' /\ rpos r' = q + k /\ r_eof r' = (k <? n) /\ r_res r' = n - k.
Proof.
  induction fuel as [|fuel IH]; intros f c ids r acc n H R Hn Hf q k; [lia|].
  cbn [readbytes_loop]. replace (n >? 0) with true by lia.
  pose proof (reset_spec f c ids r (r_offset r >=? BufSize) H R) as P.
  destruct (if negb (r_org r =? b_org (bget f (r_buf r))) || (r_offset r >=? BufSize) then Set_ f (r_org r + r_offset r) else (f, r)) as [g r'].
  destruct P as (ids' & P1 & P2 & P3 & P4 & P5 & P6 & P7 & P8 & P9 & P10). specialize (P10 eq_refl).
  destruct (cur_buf g c ids' r' P1 P4 P5 P6) as (C1 & C2 & C3 & C4).
  fold q in P7. pose proof (I_len _ _ _ H) as Lc.
  assert (Q0 : 0 <= q) by (unfold q, rpos; destruct R; pose proof (zlen_nonneg _ c); lia).
  destruct P4 as [Q1 Q2 Q3 Q4 Q5]. pose proof (Q5 P5) as Q6. unfold rpos in P7.
  destruct (b_size (bget g (r_buf r')) - r_offset r' =? 0) eqn:E1.
  - assert (K : k = 0) by (unfold k; unfold BufSize in *; lia). rewrite K, sub_nil, app_nil_r.
    do 2 eexists. exists ids'. split; [reflexivity|]. split; auto. split; auto. split; auto. unfold rpos. cbn [r_org r_offset r_eof r_res r_buf].
    split; [constructor; unfold rpos; cbn [r_buf r_org r_offset]; auto|]. split; [lia|]. split; [|lia]. symmetry. lia.
  - set (rest := b_size (bget g (r_buf r')) - r_offset r') in *.
    set (mn := if n >? rest then rest else n).
    assert (Mn : 0 < mn <= rest /\ mn <= n /\ (mn = n \/ mn = rest)) by (unfold mn; destruct (n >? rest) eqn:E; lia).
    destruct Mn as (M1 & M2 & M3). unfold Assert.
    assert (Le : r_offset r' + mn <= BufSize) by (unfold rest in *; unfold BufSize in *; lia).
    replace (r_offset r' + mn <=? BufSize) with true by lia. cbn [bind].
    set (r2 := mkrider _ _ _ _ _).
    assert (Sb : sub (b_data (bget g (r_buf r'))) (r_offset r') mn = sub c q mn).
    { apply sub_eq; try lia.
      intros j Hj. rewrite C4 by lia. f_equal. lia. }
    rewrite Sb.
    assert (R2 : Rok g ids' r2).
    { constructor; unfold r2, rpos; cbn [r_buf r_org r_offset]; auto; lia. }
    assert (P2' : rpos r2 = q + mn) by (unfold rpos, r2; cbn [r_org r_offset]; lia).
    destruct (Z.eq_dec mn n) as [En|Nn].
    + (* finished *)
      assert (K : k = n) by (unfold k; unfold rest in *; unfold BufSize in *; lia).
      destruct fuel as [|fuel']; [lia|]. cbn [readbytes_loop]. replace (n - mn >? 0) with false by lia.
      rewrite K, En. do 2 eexists. exists ids'. split; [reflexivity|]. split; auto. split; auto. split; auto.
      unfold rpos in *. cbn [r_org r_offset r_eof r_res r_buf].
      split; [destruct R2; constructor; unfold rpos in *; cbn [r_buf r_org r_offset]; auto|].
      split; [lia|]. split; [symmetry; lia|lia].
    + destruct (IH g c ids' r2 (acc ++ sub c q mn) (n - mn) P1 R2 ltac:(lia) ltac:(lia)) as (g3 & r3 & ids3 & I1 & I2 & I3 & I4 & I5 & I6 & I7 & I8).
      rewrite P2' in *. replace (Z.min (q + mn) (flen g)) with (q + mn) in * by (unfold rest in *; unfold BufSize in *; lia).
      set (k2 := Z.min (n - mn) (flen g - (q + mn))) in *.
      assert (K : k = mn + k2) by (unfold k, k2; unfold rest in *; unfold BufSize in *; lia).
      exists g3, r3, ids3. split.
      { rewrite I1. do 3 f_equal. rewrite <- app_assoc. f_equal. rewrite K. apply sub_app; try lia; unfold k2; unfold rest in *; unfold BufSize in *; lia. }
      split; auto. split; [eapply ext_trans; eauto|]. split; [lia|]. split; auto. split; [lia|].
      split; [rewrite I7; destruct (k2 <? n - mn) eqn:Ek; symmetry; lia|]. lia.
Qed.

(** Storing into the current buffer: [xs] at the rider's position inside the block. *)
Lemma store_spec : forall f c ids r xs, Inv f c ids -> Rok f ids r -> In (r_buf r) ids -> b_org (bget f (r_buf r)) = r_org r ->
  r_offset r + zlen xs <= BufSize -> 0 < zlen xs ->
  let x := bget f (r_buf r) in let o := r_offset r + zlen xs in
  let g := if o >? b_size x
           then with_len (bset f (r_buf r) (mkbuf true (b_org x) o (put (b_data x) (r_offset r) xs))) (flen f + (o - b_size x))
           else bset f (r_buf r) (mkbuf true (b_org x) (b_size x) (put (b_data x) (r_offset r) xs)) in
  Inv g (overwrite c (rpos r) xs) ids /\ ext f ids g ids /\ flen f <= flen g.
Proof.
  intros f c ids r xs H R Hi Ho Hfit Hx x o g. assert (Ho' : b_org x = r_org r) by exact Ho.
  destruct (cur_buf f c ids r H R Hi Ho) as (C1 & C2 & C3 & C4). fold x in C1, C2, C3, C4.
  pose proof (I_len _ _ _ H) as Lc. pose proof (I_heap _ _ _ H _ Hi) as Hlt.
  assert (RR := R). destruct R as [R1 R2 R3 R4 R5]. specialize (R5 Hi).
  set (sz := Z.max (b_size x) o).
  set (y := mkbuf true (b_org x) sz (put (b_data x) (r_offset r) xs)).
  set (p := rpos r) in *. set (c' := overwrite c p xs).
  assert (P0 : 0 <= p <= zlen c) by (unfold p, rpos; lia).
  assert (Lc' : zlen c' = Z.max (zlen c) (p + zlen xs)) by (apply zlen_overwrite; auto).
  assert (Hg : heap g = set_nth (r_buf r) y (heap f) /\ flen g = zlen c' /\ slots g = slots f /\ swapper g = swapper f /\
    fpos g = fpos f /\ fd g = fd f /\ disk g = disk f /\ dpos g = dpos f).
  { unfold g. destruct (o >? b_size x) eqn:E; unfold with_len, bset; fcbn.
    - unfold y, sz. replace (Z.max (b_size x) o) with o by lia. repeat split; auto.
      rewrite Lc'. unfold p, rpos, o in *. unfold BufSize in *. lia.
    - unfold y, sz. replace (Z.max (b_size x) o) with (b_size x) by lia. repeat split; auto.
      rewrite Lc'. unfold p, rpos, o in *. unfold BufSize in *. lia. }
  destruct Hg as (G1 & G2 & G3 & G4 & G5 & G6 & G7 & G8). clearbody g.
  assert (Bg : forall b, bget g b = if Nat.eqb b (r_buf r) then y else bget f b).
  { intro b. unfold bget. rewrite G1. apply nth_set_nth. auto. }
  assert (Hne : forall b', b' <> r_buf r -> bget g b' = bget f b').
  { intros b' N. rewrite Bg. replace (Nat.eqb b' (r_buf r)) with false by (symmetry; apply Nat.eqb_neq; auto). auto. }
  assert (Heq : bget g (r_buf r) = y) by (rewrite Bg, Nat.eqb_refl; auto).
  assert (Lh : length (heap g) = length (heap f)) by (rewrite G1; apply set_nth_length).
  assert (Szy : sz = Z.min BufSize (zlen c' - r_org r)).
  { unfold sz, o. rewrite Lc'. unfold p, rpos. unfold BufSize in *. lia. }
  split; [|split; [split; [apply incl_refl|split; [lia|auto]]|lia]].
  assert (Oorg : forall b', b_org (bget g b') = b_org (bget f b')).
  { intro b'. rewrite Bg. destruct (Nat.eqb b' (r_buf r)) eqn:E; auto. apply Nat.eqb_eq in E. subst. unfold y. fcbn. reflexivity. }
  constructor; try (rewrite ?G3, ?G4, ?G5, ?G6, ?G7, ?G8, ?Lh; apply H).
  - auto.
  - intros b Hb. destruct (Nat.eq_dec b (r_buf r)) as [->|N]; [|rewrite Hne by auto; apply (I_data _ _ _ H); auto].
    rewrite Heq. unfold y. fcbn. rewrite zlen_put_in; auto; lia.
  - intros b Hb. destruct (Nat.eq_dec b (r_buf r)) as [->|N].
    + rewrite Heq. unfold y. fcbn. intros _. rewrite Ho', G2. refine (conj _ (conj _ (conj _ _))); auto; try lia.
      intros j Hj. rewrite ix_put by lia. unfold c'. rewrite ix_overwrite by lia.
      unfold p, rpos. destruct ((r_offset r <=? j) && (j <? r_offset r + zlen xs)) eqn:E.
      * replace ((r_org r + r_offset r <=? r_org r + j) && (r_org r + j <? r_org r + r_offset r + zlen xs)) with true by lia. f_equal. lia.
      * replace ((r_org r + r_offset r <=? r_org r + j) && (r_org r + j <? r_org r + r_offset r + zlen xs)) with false by lia.
        apply C4. unfold sz, o in Hj. lia.
    + rewrite Hne by auto. intro Q. destruct (I_buf _ _ _ H b Hb Q) as (B1 & B2 & B3 & B4).
      assert (Nq : b_org (bget f b) <> r_org r).
      { intro E. apply N. apply (I_org _ _ _ H); auto. lia. }
      pose proof (block_sep _ _ B2 R3 Nq) as Sep. fold p in R5. assert (Pp : p = r_org r + r_offset r) by reflexivity.
      set (ob := b_org (bget f b)) in *. set (sb := b_size (bget f b)) in *. rewrite G2, Lc'.
      refine (conj _ (conj _ (conj _ _))); auto.
      * clear - B1 Lc. lia.
      * clear - B1 B3 Lc Sep P0 Pp R4 Hfit. unfold BufSize in *. lia.
      * intros j Hj. rewrite B4 by auto. unfold c'. rewrite ix_overwrite by (auto; clear - B1 Hj; lia).
        replace ((p <=? ob + j) && (ob + j <? p + zlen xs)) with false; auto.
        clear - Hj B1 B3 Lc Sep P0 Pp R4 Hfit. unfold BufSize in *. lia.
  - intros b Hb Q. destruct (Nat.eq_dec b (r_buf r)) as [->|N].
    + rewrite Oorg in Q. fold x in Q. lia.
    + rewrite Hne in * by auto. apply (I_clean _ _ _ H); auto.
  - intros b1 b2 In1 In2. rewrite !Oorg. apply (I_org _ _ _ H); auto.
  - intros b Hb. rewrite Oorg. apply (I_det _ _ _ H); auto.
  - intros j Hj Hc. rewrite G7. rewrite G2 in Hj.
    assert (Nj : ~ (r_org r <= j < r_org r + sz)).
    { specialize (Hc _ Hi). rewrite Heq in Hc. unfold y in Hc. cbn [b_chg b_org b_size] in Hc. rewrite Ho' in Hc. apply Hc; auto. }
    assert (Jl : j < flen f) by (unfold sz, o, p, rpos in *; unfold BufSize in *; lia).
    destruct (I_cov _ _ _ H j ltac:(lia)) as [D1 D2].
    + intros b Hb Q Rg. destruct (Nat.eq_dec b (r_buf r)) as [->|N].
      * fold x in Rg. rewrite Ho' in Rg. unfold sz in Nj. lia.
      * apply (Hc b Hb); rewrite Hne by auto; auto.
    + split; auto. rewrite D2. unfold c'. rewrite ix_overwrite by lia.
      replace ((p <=? j) && (j <? p + zlen xs)) with false; auto.
      unfold sz, o, p, rpos in *. lia.
  - rewrite G7, G2. pose proof (I_disk _ _ _ H). lia.
Qed.

Lemma Write_spec : forall f c ids r x, Inv f c ids -> Rok f ids r ->
  let q := Z.min (rpos r) (flen f) in
  exists g r' ids', Write f r x = Ok (g, r') /\ Inv g (overwrite c q [x]) ids' /\ ext f ids g ids' /\ flen f <= flen g /\
    Rok g ids' r' /\ rpos r' = q + 1 /\ eof_kept (r_eof r) (r_eof r') /\ r_res r' = 0.
Proof.
  intros f c ids r x H R q. unfold Write, Assert.
  replace (r_offset r <=? BufSize) with true by (destruct R; lia). cbn [bind].
  pose proof (reset_spec f c ids r (r_offset r >=? BufSize) H R) as P.
  destruct (if negb (r_org r =? b_org (bget f (r_buf r))) || (r_offset r >=? BufSize) then Set_ f (r_org r + r_offset r) else (f, r)) as [g r'].
  destruct P as (ids' & P1 & P2 & P3 & P4 & P5 & P6 & P7 & P8 & P9 & P10). specialize (P10 eq_refl).
  replace (r_offset r' <? BufSize) with true by lia. cbn [bind].
  destruct (cur_buf g c ids' r' P1 P4 P5 P6) as (C1 & C2 & C3 & C4).
  pose proof (store_spec g c ids' r' [x] P1 P4 P5 P6) as S. change (zlen [x]) with 1 in S.
  specialize (S ltac:(lia) ltac:(lia)). cbv zeta in S.
  set (g2 := if r_offset r' =? b_size (bget g (r_buf r')) then _ else _).
  match type of S with Inv ?G _ _ /\ _ => assert (EG : g2 = G) end.
  { unfold g2. destruct (r_offset r' =? b_size (bget g (r_buf r'))) eqn:E.
    - replace (r_offset r' + 1 >? b_size (bget g (r_buf r'))) with true by lia.
      replace (r_offset r' + 1) with (b_size (bget g (r_buf r')) + 1) by lia.
      replace (b_size (bget g (r_buf r')) + 1 - b_size (bget g (r_buf r'))) with 1 by lia. reflexivity.
    - replace (r_offset r' + 1 >? b_size (bget g (r_buf r'))) with false by lia. reflexivity. }
  rewrite <- EG in S. destruct S as (S1 & S2 & S3).
  do 2 eexists. exists ids'. split; [reflexivity|]. rewrite P7 in S1. fold q in S1, P7.
  split; auto. split; [eapply ext_trans; eauto|]. split; [lia|]. unfold rpos in *. cbn [r_org r_offset r_eof r_res].
  split; [|split; [lia|split; auto]].
  pose proof (Rok_ext g ids' g2 ids' r' P4 S2 S3) as R2. destruct R2 as [T1 T2 T3 T4 T5].
  constructor; unfold rpos in *; cbn [r_buf r_org r_offset]; auto; try lia.
  intros _. pose proof (I_len _ _ _ S1) as L. unfold rpos in *.
  pose proof (I_len _ _ _ H). assert (0 <= q) by (unfold q; destruct R; lia).
  rewrite zlen_overwrite in L by (unfold q in *; lia). change (zlen [x]) with 1 in L. lia.
Qed.

Lemma overwrite_app : forall c p a b, 0 <= p <= zlen c -> overwrite (overwrite c p a) (p + zlen a) b = overwrite c p (a ++ b).
Proof.
  intros c p a b Hp. pose proof (zlen_nonneg _ a). pose proof (zlen_nonneg _ b).
  assert (L : zlen (overwrite c p a) = Z.max (zlen c) (p + zlen a)) by (apply zlen_overwrite; auto).
  apply ix_ext.
  - rewrite !zlen_overwrite by lia. rewrite zlen_app. lia.
  - intros j Hj. rewrite !ix_overwrite by lia. rewrite zlen_app.
    destruct ((p + zlen a <=? j) && (j <? p + zlen a + zlen b)) eqn:E1.
    + replace ((p <=? j) && (j <? p + (zlen a + zlen b))) with true by lia. rewrite ix_app by lia.
      replace (j - p <? zlen a) with false by lia. f_equal. lia.
    + destruct ((p <=? j) && (j <? p + zlen a)) eqn:E2.
      * replace ((p <=? j) && (j <? p + (zlen a + zlen b))) with true by lia. rewrite ix_app by lia.
        replace (j - p <? zlen a) with true by lia. reflexivity.
      * replace ((p <=? j) && (j <? p + (zlen a + zlen b))) with false by lia. reflexivity.
Qed.

Lemma writebytes_spec : forall fuel f c ids r xs, Inv f c ids -> Rok f ids r -> 0 < zlen xs -> zlen xs < Z.of_nat fuel ->
  let q := Z.min (rpos r) (flen f) in
  exists g r' ids', writebytes_loop fuel f r xs = Ok (g, r') /\ Inv g (overwrite c q xs) ids' /\ ext f ids g ids' /\
    flen f <= flen g /\ Rok g ids' r' /\ rpos r' = q + zlen xs /\ eof_kept (r_eof r) (r_eof r') /\ r_res r' = 0.
Proof.
  induction fuel as [|fuel IH]; intros f c ids r xs H R Hn Hf q; [lia|].
  cbn [writebytes_loop]. replace (zlen xs >? 0) with true by lia. unfold Assert at 1.
  replace (r_offset r <=? BufSize) with true by (destruct R; lia). cbn [bind].
  pose proof (reset_spec f c ids r (r_offset r >=? BufSize) H R) as P.
  destruct (if negb (r_org r =? b_org (bget f (r_buf r))) || (r_offset r >=? BufSize) then Set_ f (r_org r + r_offset r) else (f, r)) as [g r'].
  destruct P as (ids' & P1 & P2 & P3 & P4 & P5 & P6 & P7 & P8 & P9 & P10). specialize (P10 eq_refl).
  unfold Assert at 1. replace (r_offset r' <=? BufSize) with true by lia. cbn [bind].
  destruct (cur_buf g c ids' r' P1 P4 P5 P6) as (C1 & C2 & C3 & C4).
  pose proof (I_len _ _ _ H) as Lc.
  assert (Q0 : 0 <= q <= zlen c) by (unfold q, rpos; destruct R; pose proof (zlen_nonneg _ c); lia).
  fold q in P7.
  set (mn := if zlen xs >? BufSize - r_offset r' then BufSize - r_offset r' else zlen xs).
  assert (Mn : 0 < mn <= zlen xs /\ r_offset r' + mn <= BufSize).
  { unfold mn. destruct (zlen xs >? BufSize - r_offset r') eqn:E; lia. }
  destruct Mn as [M1 M2].
  set (ys := firstn (Z.to_nat mn) xs). assert (Ly : zlen ys = mn) by (apply zlen_firstn; lia).
  unfold Assert. replace (r_offset r' + mn <=? BufSize) with true by lia. cbn [bind].
  pose proof (store_spec g c ids' r' ys P1 P4 P5 P6 ltac:(lia) ltac:(lia)) as S. cbv zeta in S. rewrite Ly in S.
  set (g2 := if r_offset r' + mn >? b_size (bget g (r_buf r')) then _ else _) in *.
  destruct S as (S1 & S2 & S3). rewrite P7 in S1.
  set (r2 := mkrider _ _ _ _ _).
  assert (L2 : flen g2 = Z.max (zlen c) (q + mn)).
  { pose proof (I_len _ _ _ S1) as L. rewrite zlen_overwrite in L by lia. lia. }
  assert (R2 : Rok g2 ids' r2).
  { pose proof (Rok_ext g ids' g2 ids' r' P4 S2 S3) as R2. destruct R2 as [T1 T2 T3 T4 T5].
    constructor; unfold rpos, r2 in *; cbn [r_buf r_org r_offset]; auto; try lia. }
  assert (Pr2 : rpos r2 = q + mn) by (unfold rpos, r2 in *; cbn [r_org r_offset]; lia).
  destruct (Z.eq_dec mn (zlen xs)) as [Em|Nm].
  - destruct fuel as [|fuel']; [lia|]. cbn [writebytes_loop].
    assert (Lz : zlen (skipn (Z.to_nat mn) xs) = 0) by (rewrite zlen_skipn by lia; lia).
    rewrite Lz. replace (0 >? 0) with false by lia.
    assert (Yx : ys = xs). { unfold ys. rewrite Em. unfold zlen. rewrite Nat2Z.id. apply firstn_all. }
    rewrite Yx in S1. do 2 eexists. exists ids'. split; [reflexivity|]. split; auto. split; [eapply ext_trans; eauto|].
    split; [lia|]. split; [destruct R2; constructor; auto|]. unfold rpos in *. cbn [r_org r_offset r_eof r_res].
    split; [lia|]. split; auto.
  - assert (Lz : zlen (skipn (Z.to_nat mn) xs) = zlen xs - mn) by (rewrite zlen_skipn by lia; lia).
    destruct (IH g2 (overwrite c q ys) ids' r2 (skipn (Z.to_nat mn) xs) S1 R2 ltac:(lia) ltac:(lia))
      as (g3 & r3 & ids3 & I1 & I2 & I3 & I4 & I5 & I6 & I7 & I8).
    rewrite Pr2 in *. replace (Z.min (q + mn) (flen g2)) with (q + mn) in * by lia.
    exists g3, r3, ids3. split; [exact I1|]. split.
    { rewrite <- Ly in I2 at 1. rewrite overwrite_app in I2 by lia. unfold ys in I2. rewrite firstn_skipn in I2. exact I2. }
    split; [eapply ext_trans; [exact P2|eapply ext_trans; eauto]|]. split; [lia|]. split; auto. split; [lia|].
    split; auto. unfold r2 in I7. cbn [r_eof] in I7. unfold eof_kept in *. destruct I7 as [I7|I7]; rewrite I7; auto.
Qed.

(** Purge *)
Lemma detach_spec : forall sl h b, b_org (nth b h buf0) = -1 \/ In (Some b) sl ->
  (forall b', In (Some b') sl -> (b' < length h)%nat) -> b_org (nth b (detach h sl) buf0) = -1.
Proof.
  induction sl as [|[s|] sl IH]; intros h b H Hb; cbn [detach].
  - destruct H as [H|[]]; auto.
  - assert (Ls : (s < length h)%nat) by (apply Hb; left; auto).
    apply IH.
    + rewrite nth_set_nth by auto. destruct (Nat.eqb b s) eqn:E; [left; reflexivity|].
      destruct H as [H|[H|H]]; auto. inversion H. subst. rewrite Nat.eqb_refl in E. discriminate.
    + intros b' Hb'. rewrite set_nth_length. apply Hb. right; auto.
  - apply IH.
    + destruct H as [H|[H|H]]; auto. discriminate.
    + intros. apply Hb. right; auto.
Qed.
Lemma detach_length : forall sl h, length (detach h sl) = length h.
Proof.
  induction sl as [|[s|] sl IH]; intro h; cbn [detach]; auto. rewrite IH. apply set_nth_length.
Qed.

Lemma Purge_spec : forall f c ids, Inv f c ids -> Inv (Purge f) [] [].
Proof.
  intros f c ids H. unfold Purge.
  assert (Det : forall b, b_org (nth b (detach (heap f) (slots f)) buf0) = -1).
  { intro b. apply detach_spec.
    - destruct (in_dec Nat.eq_dec b ids) as [Hi|Hn].
      + right. rewrite (I_slots _ _ _ H). apply in_or_app. left. apply in_map. auto.
      + left. apply (I_det _ _ _ H); auto.
    - intros b' Hb'. rewrite (I_slots _ _ _ H) in Hb'. apply in_app_or in Hb'. destruct Hb' as [Hb'|Hb'].
      + apply in_map_iff in Hb'. destruct Hb' as (z & E & Hz). inversion E; subst. apply (I_heap _ _ _ H); auto.
      + apply repeat_spec in Hb'. discriminate. }
  constructor; fcbn; auto; try (solve [intros b []]); try (cbn; lia).
  - constructor.
  - destruct (fd f) eqn:E; [cbn; lia|]. rewrite (I_nofd _ _ _ H E). cbn. lia.
  - intro E. rewrite E. auto.
  - intro E. rewrite E. apply (I_nofd _ _ _ H E).
Qed.

(** Close *)
Lemma flush_all_spec : forall l f c ids k, Inv f c ids -> incl l ids ->
  let g := flush_all f (map Some l ++ repeat None k) in
  Inv g c ids /\ ext f ids g ids /\ flen g = flen f /\ (fd f = true -> fd g = true) /\
  (forall b, b_chg (bget f b) = false -> b_chg (bget g b) = false) /\
  (forall b, In b l -> b_chg (bget g b) = false).
Proof.
  induction l as [|b l IH]; intros f c ids k H Hl g.
  - unfold g. cbn [map app]. assert (E : flush_all f (repeat None k) = f) by (destruct k; reflexivity). rewrite E.
    split; auto. split; [apply ext_refl|]. split; auto. split; auto. split; auto. intros b [].
  - unfold g. cbn [map app flush_all]. clear g.
    assert (Hb : In b ids) by (apply Hl; left; auto).
    destruct (Flush_spec f c ids b H Hb) as (F1 & F2 & F3 & F4 & F5 & F6 & F7).
    destruct (IH (Flush f b) c ids k F1) as (I1 & I2 & I3 & I4 & I5 & I6).
    { intros z Hz. apply Hl. right; auto. }
    split; auto. split.
    { eapply ext_trans; eauto. split; [apply incl_refl|]. split; [lia|]. auto. }
    split; [lia|]. split; auto. split.
    + intros z Hz. apply I5. apply F7. auto.
    + intros z [<-|Hz]; auto.
Qed.

Lemma Close_spec : forall f c ids, Inv f c ids ->
  Inv (Close f) c ids /\ ext f ids (Close f) ids /\ flen (Close f) = flen f /\ disk (Close f) = c.
Proof.
  intros f c ids H. unfold Close. destruct (Inv_Create f c ids H) as (H1 & Hfd & Hh & Hl & Hd).
  rewrite (I_slots _ _ _ H1).
  destruct (flush_all_spec ids (Create f) c ids (NumBufs - length ids) H1 (incl_refl _)) as (I1 & I2 & I3 & I4 & I5 & I6).
  set (g := flush_all _ _) in *. split; auto.
  split. { eapply ext_trans; eauto. split; [apply incl_refl|]. rewrite Hh. auto. }
  split; [lia|].
  assert (C : forall j, 0 <= j < flen g -> j < zlen (disk g) /\ ix (disk g) j = ix c j).
  { intros j Hj. apply (I_cov _ _ _ I1 j Hj). intros b Hb Q. rewrite I6 in Q by auto. discriminate. }
  pose proof (I_disk _ _ _ I1). pose proof (I_len _ _ _ I1).
  assert (L : zlen (disk g) = zlen c).
  { pose proof (zlen_nonneg _ (disk g)). destruct (Z.eq_dec (flen g) 0); [lia|].
    destruct (C (flen g - 1)) as [C1 _]; lia. }
  apply ix_ext; auto. intros j Hj. apply C. lia.
Qed.

(** * Simulation *)
Definition sim (s : state) (a : astate) : Prop :=
  exists ids, Inv (fst s) (fst a) ids /\ Forall (Rok (fst s) ids) (snd s) /\
    snd a = map (fun r => mka (rpos r) (r_eof r) (r_res r)) (snd s).

Lemma Forall_set_nth : forall A (P : A -> Prop) l i x, Forall P l -> P x -> Forall P (set_nth i x l).
Proof.
  intros A P l. induction l as [|y l IH]; intros [|i] x H Hx; simpl; auto; inversion H; subst; constructor; auto.
Qed.
Lemma map_set_nth : forall A B (g : A -> B) l i x, map g (set_nth i x l) = set_nth i (g x) (map g l).
Proof. intros A B g l. induction l as [|y l IH]; intros [|i] x; simpl; auto. rewrite IH. reflexivity. Qed.

Lemma overwrite_nil : forall c p, overwrite c p [] = c.
Proof. intros. unfold overwrite. rewrite zlen_nil, Z.add_0_r. simpl. apply firstn_skipn. Qed.

Theorem step_sim : forall s a o, sim s a -> op_ok (length (snd s)) o ->
  exists s' v a', step s o = Ok (s', v) /\ astep a o v a' /\ sim s' a' /\ length (snd s') = length (snd s) /\
    (o = OClose -> disk (fst s') = fst a').
Proof.
  intros [f rs] [c ars] o (ids & H & HR & Ea) Hok. cbn [fst snd] in *. subst ars.
  assert (Get : forall i, (i < length rs)%nat -> exists r, rget rs i = Ok r /\ nth_error rs i = Some r /\ Rok f ids r /\
     nth_error (map (fun r => mka (rpos r) (r_eof r) (r_res r)) rs) i = Some (mka (rpos r) (r_eof r) (r_res r))).
  { intros i Hi. unfold rget. destruct (nth_error rs i) as [r|] eqn:E; [|apply nth_error_None in E; lia].
    exists r. split; auto. split; auto. split.
    - rewrite Forall_forall in HR. apply HR. eapply nth_error_In; eauto.
    - rewrite nth_error_map, E. reflexivity. }
  assert (Ext : forall g ids', ext f ids g ids' -> flen f <= flen g -> Forall (Rok g ids') rs).
  { intros g ids' He Hl. eapply Forall_impl; [|exact HR]. intros r Rr. eapply Rok_ext; eauto. }
  pose proof (I_len _ _ _ H) as Lc.
  destruct o as [i pos|i|i lx n|i x|i x n|i| | |]; cbn [op_ok] in Hok; unfold step.
  - destruct (Get i Hok) as (r & G1 & G2 & G3 & G4). rewrite G1. cbn [bind].
    pose proof (Set_spec f c ids pos H) as S. destruct (Set_ f pos) as [g r'].
    destruct S as (ids' & S1 & S2 & S3 & S4 & S5 & S6 & S7 & S8 & S9 & S10).
    do 3 eexists. split; [reflexivity|]. split; [eapply a_set; eauto|]. split; [|split; [apply set_nth_length|discriminate]].
    exists ids'. cbn [fst snd]. split; auto. split; [apply Forall_set_nth; auto; apply Ext; auto; lia|].
    rewrite map_set_nth. rewrite S8, S9, S10, Lc. reflexivity.
  - destruct (Get i Hok) as (r & G1 & G2 & G3 & G4). rewrite G1. cbn [bind].
    destruct (Read_spec f c ids r H G3) as (x & g & r' & ids' & E & S1 & S2 & S3 & S4 & S5 & S6). rewrite E. cbn [bind].
    destruct S6 as [(T1 & T2 & T3 & T4)|(T1 & T2 & T3 & T4)].
    + do 3 eexists. split; [reflexivity|]. split.
      { rewrite T2. eapply (a_read c _ i _ (r_eof r') (r_res r') G4); cbn [a_pos a_eof a_res]; auto. lia. }
      split; [|split; [apply set_nth_length|discriminate]].
      exists ids'. cbn [fst snd]. split; auto. split; [apply Forall_set_nth; auto; apply Ext; auto; lia|].
      rewrite map_set_nth. rewrite T3. reflexivity.
    + do 3 eexists. split; [reflexivity|]. split.
      { rewrite T2, T4. eapply (a_read_end c _ i _ (r_res r') G4); cbn [a_pos a_eof a_res]; auto. lia. }
      split; [|split; [apply set_nth_length|discriminate]].
      exists ids'. cbn [fst snd]. split; auto. split; [apply Forall_set_nth; auto; apply Ext; auto; lia|].
      rewrite map_set_nth. rewrite T3, T4, Lc. reflexivity.
  - destruct Hok as [Hi Hn]. destruct (Get i Hi) as (r & G1 & G2 & G3 & G4). rewrite G1. cbn [bind].
    unfold ReadBytes. replace (n >? lx) with false by lia.
    destruct (Z_le_gt_dec n 0) as [Hz|Hp].
    + cbn [readbytes_loop]. replace (n >? 0) with false by lia. cbn [bind].
      do 3 eexists. split; [reflexivity|]. split; [cbn [r_eof r_res]; eapply a_readbytes0; eauto|].
      split; [|split; [apply set_nth_length|discriminate]].
      exists ids. cbn [fst snd]. split; auto. split.
      { apply Forall_set_nth; auto. destruct G3. constructor; unfold rpos in *; cbn [r_buf r_org r_offset]; auto. }
      rewrite map_set_nth. reflexivity.
    + destruct (readbytes_spec (S (Z.to_nat n)) f c ids r [] n H G3 ltac:(lia) ltac:(lia))
        as (g & r' & ids' & E & S1 & S2 & S3 & S4 & S5 & S6 & S7).
      rewrite E. cbn [bind app]. do 3 eexists. split; [reflexivity|]. split.
      { rewrite S6, S7. unfold sub. rewrite <- Lc. eapply (a_readbytes c _ i lx n _ _ _ G4); cbn [a_pos]; auto. lia. }
      split; [|split; [apply set_nth_length|discriminate]].
      exists ids'. cbn [fst snd]. split; auto. split; [apply Forall_set_nth; auto; apply Ext; auto; lia|].
      rewrite map_set_nth. rewrite S5, S6, S7, Lc. reflexivity.
  - destruct (Get i Hok) as (r & G1 & G2 & G3 & G4). rewrite G1. cbn [bind].
    destruct (Write_spec f c ids r x H G3) as (g & r' & ids' & E & S1 & S2 & S3 & S4 & S5 & S6 & S7). rewrite E. cbn [bind].
    do 3 eexists. split; [reflexivity|]. split.
    { eapply (a_write c _ i x _ _ (r_eof r') G4); cbn [a_pos a_eof]; auto. }
    split; [|split; [apply set_nth_length|discriminate]].
    exists ids'. cbn [fst snd a_pos]. rewrite Lc. split; auto. split; [apply Forall_set_nth; auto; apply Ext; auto; lia|].
    rewrite map_set_nth. rewrite S5, S7. reflexivity.
  - destruct Hok as [Hi Hn]. destruct (Get i Hi) as (r & G1 & G2 & G3 & G4). rewrite G1. cbn [bind].
    unfold WriteBytes. replace (n >? zlen x) with false by lia.
    destruct (Z_le_gt_dec n 0) as [Hz|Hp].
    + replace (firstn (Z.to_nat n) x) with (@nil Z) by (replace (Z.to_nat n) with 0%nat by lia; reflexivity).
      cbn [writebytes_loop]. rewrite zlen_nil. replace (0 >? 0) with false by lia. cbn [bind].
      do 3 eexists. split; [reflexivity|]. split; [eapply a_writebytes0; eauto|].
      split; [|split; [apply set_nth_length|discriminate]].
      exists ids. cbn [fst snd]. split; auto. split.
      { apply Forall_set_nth; auto. destruct G3. constructor; unfold rpos in *; cbn [r_buf r_org r_offset]; auto. }
      rewrite map_set_nth. reflexivity.
    + assert (Lf : zlen (firstn (Z.to_nat n) x) = n) by (apply zlen_firstn; lia).
      destruct (writebytes_spec (S (length x)) f c ids r (firstn (Z.to_nat n) x) H G3 ltac:(lia) ltac:(unfold zlen in *; lia))
        as (g & r' & ids' & E & S1 & S2 & S3 & S4 & S5 & S6 & S7).
      rewrite E. cbn [bind]. do 3 eexists. split; [reflexivity|]. split.
      { eapply (a_writebytes c _ i x n _ _ (r_eof r') G4); cbn [a_pos a_eof]; auto. lia. }
      split; [|split; [apply set_nth_length|discriminate]].
      exists ids'. cbn [fst snd a_pos]. rewrite Lc. split; auto. split; [apply Forall_set_nth; auto; apply Ext; auto; lia|].
      rewrite map_set_nth. rewrite S5, S7, Lf. reflexivity.
  - destruct (Get i Hok) as (r & G1 & G2 & G3 & G4). rewrite G1. cbn [bind]. unfold Pos, Assert.
    replace (r_offset r <=? BufSize) with true by (destruct G3; lia). cbn [bind].
    do 3 eexists. split; [reflexivity|]. split; [exact (a_posq c _ i _ G4)|]. split; [|split; [auto|discriminate]].
    exists ids. auto.
  - do 3 eexists. split; [reflexivity|]. split; [rewrite <- Lc; apply a_length|]. split; [|split; [auto|discriminate]].
    exists ids. auto.
  - do 3 eexists. split; [reflexivity|]. split; [apply a_purge|]. split; [|split; [auto|discriminate]].
    exists []. cbn [fst snd]. split; [eapply Purge_spec; eauto|]. split; auto.
    eapply Forall_impl; [|exact HR]. intros r [A1 A2 A3 A4 A5]. constructor; auto.
    + unfold Purge. fcbn. rewrite detach_length. auto.
    + intros [].
  - destruct (Close_spec f c ids H) as (C1 & C2 & C3 & C4).
    do 3 eexists. split; [reflexivity|]. split; [apply a_close|]. split; [|split; [auto|intros _; exact C4]].
    exists ids. cbn [fst snd]. split; auto. split; auto. apply Ext; auto. lia.
Qed.

Theorem run_sim : forall os s a, sim s a -> Forall (op_ok (length (snd s))) os ->
  exists s' vs a', run s os = Ok (s', vs) /\ asteps a os vs a' /\ sim s' a'.
Proof.
  induction os as [|o os IH]; intros s a Hs Ho.
  - exists s, [], a. split; auto. split; [constructor|auto].
  - inversion Ho; subst. destruct (step_sim s a o Hs H1) as (s1 & v & a1 & E & A & S & L & _).
    destruct (IH s1 a1 S) as (s2 & vs & a2 & E2 & A2 & S2). { rewrite L. auto. }
    exists s2, (v :: vs), a2. split; [|split; [econstructor; eauto|auto]].
    cbn [run]. rewrite E. cbn [bind]. rewrite E2. reflexivity.
Qed.

Lemma Inv_init : forall f c, slots f = repeat None NumBufs -> heap f = [] -> zlen c = flen f -> swapper f = -1 ->
  disk f = c -> (fd f = true -> fpos f = dpos f) -> (fd f = false -> disk f = []) -> Inv f c [].
Proof.
  intros f c H1 H2 H3 H4 H5 H6 H7. constructor; auto; try (solve [intros b []]); try (cbn; lia).
  - constructor.
  - intros b _. unfold bget. rewrite H2. destruct b; reflexivity.
  - intros j Hj _. rewrite H5. split; auto. lia.
  - rewrite H5. lia.
Qed.

Lemma open_riders_sim : forall n f c ids, Inv f c ids ->
  let '(g, rs) := open_riders f n in
  exists ids', Inv g c ids' /\ ext f ids g ids' /\ flen g = flen f /\ Forall (Rok g ids') rs /\ length rs = n /\
    map (fun r => mka (rpos r) (r_eof r) (r_res r)) rs = repeat (mka 0 false 0) n.
Proof.
  induction n as [|n IH]; intros f c ids H; cbn [open_riders].
  - exists ids. split; auto. split; [apply ext_refl|]. auto.
  - pose proof (Set_spec f c ids 0 H) as S. destruct (Set_ f 0) as [g r].
    destruct S as (ids1 & S1 & S2 & S3 & S4 & S5 & S6 & S7 & S8 & S9 & S10).
    specialize (IH g c ids1 S1). destruct (open_riders g n) as [g2 rs].
    destruct IH as (ids2 & I1 & I2 & I3 & I4 & I5 & I6).
    exists ids2. split; auto. split; [eapply ext_trans; eauto|]. split; [lia|]. split.
    { constructor; auto. eapply Rok_ext; eauto. lia. }
    split; [cbn [length]; lia|]. cbn [map repeat]. rewrite I6, S8, S9, S10. do 2 f_equal.
    pose proof (I_len _ _ _ H). pose proof (zlen_nonneg _ c). lia.
Qed.
