From Verif Require Import Base ArrZ StringsModel StringsSpec.

Ltac stepget := match goal with |- context [getA ?a ?i] => rewrite (getA_ix a i) by lia; rewrite bind_ok end.
Ltac stepset := match goal with |- context [setA ?a ?i ?x] => rewrite (setA_ix a i x) by lia; rewrite ?bind_ok end.

Lemma length_loop_spec : forall fuel s i, 0 <= i <= zlen (str_of s) -> zlen s - i < Z.of_nat fuel ->
  length_loop fuel s i = Ok (zlen (str_of s)).
Proof.
  induction fuel as [|fuel IH]; intros s i Hi Hf; destruct (str_of_spec s) as (I1 & I2 & I3); [lia|].
  cbn [length_loop]. destruct (i <? zlen s) eqn:E.
  - stepget. destruct (ix s i =? 0) eqn:E0.
    + f_equal. destruct (Z.eq_dec i (zlen (str_of s))); auto.
      destruct (I2 i ltac:(lia)) as [_ N]. lia.
    + apply IH; [|lia]. split; [lia|]. destruct (Z.eq_dec i (zlen (str_of s))) as [He|]; [|lia].
      rewrite <- He in I3. specialize (I3 ltac:(lia)). lia.
  - f_equal. lia.
Qed.

Lemma Length_spec : forall s, zlen s <= 32767 -> Length s = Ok (zlen (str_of s)).
Proof.
  intros s H. unfold Length. destruct (str_of_spec s) as (I1 & _). pose proof (zlen_nonneg _ (str_of s)).
  rewrite length_loop_spec; [|lia|unfold zlen; lia]. rewrite bind_ok.
  replace (zlen (str_of s) <=? 32767) with true by lia. reflexivity.
Qed.

Lemma Length_saturates : forall s, Length s = Ok (Z.min (zlen (str_of s)) 32767).
Proof.
  intros s. unfold Length. destruct (str_of_spec s) as (I1 & _). pose proof (zlen_nonneg _ (str_of s)).
  rewrite length_loop_spec; [|lia|unfold zlen; lia]. rewrite bind_ok.
  f_equal. destruct (zlen (str_of s) <=? 32767) eqn:E; lia.
Qed.

(** ** Append *)
Lemma append_loop_spec : forall fuel extra d n1 n2 i, 0 <= n1 <= zlen d -> 0 <= n2 <= zlen extra ->
  let K := Z.min n2 (zlen d - n1) in 0 <= i <= K -> K - i < Z.of_nat fuel ->
  exists d', append_loop fuel extra d n1 n2 i = Ok (d', K) /\ zlen d' = zlen d /\
    forall j, 0 <= j -> ix d' j = if (n1 + i <=? j) && (j <? n1 + K) then ix extra (j - n1) else ix d j.
Proof.
  induction fuel as [|fuel IH]; intros extra d n1 n2 i Hn1 Hn2 K Hi Hf; [lia|].
  cbn [append_loop]. destruct ((i <? n2) && (i + n1 <? zlen d)) eqn:E.
  - stepget. stepset.
    destruct (IH extra (set_nth (Z.to_nat (i + n1)) (ix extra i) d) n1 n2 (i + 1)) as (d' & H1 & H2 & H3);
      rewrite ?zlen_set in *; auto; try (unfold K in *; lia).
    exists d'. fold K in H1, H3. split; auto. split; auto.
    intros j Hj. rewrite H3 by auto. rewrite ix_set by lia.
    destruct (j =? i + n1) eqn:Ej.
    + replace ((n1 + (i + 1) <=? j) && (j <? n1 + K)) with false by lia.
      replace ((n1 + i <=? j) && (j <? n1 + K)) with true by lia. f_equal. lia.
    + destruct ((n1 + (i + 1) <=? j) && (j <? n1 + K)) eqn:E1;
      destruct ((n1 + i <=? j) && (j <? n1 + K)) eqn:E2; auto; lia.
  - exists d. replace K with i by (unfold K in *; lia). split; auto. split; auto.
    intros j Hj. replace ((n1 + i <=? j) && (j <? n1 + i)) with false by lia. reflexivity.
Qed.

(** The pointwise result of Append. *)
Lemma Append_spec : forall extra d, zlen extra <= 32767 -> zlen d <= 32767 ->
  let n1 := zlen (str_of d) in let n2 := zlen (str_of extra) in let K := Z.min n2 (zlen d - n1) in
  exists d', Append extra d = Ok d' /\ zlen d' = zlen d /\
    forall j, 0 <= j < zlen d -> ix d' j = if (n1 <=? j) && (j <? n1 + K) then ix extra (j - n1)
       else if j =? n1 + K then 0 else ix d j.
Proof.
  intros extra d He Hd n1 n2 K. unfold Append. rewrite !Length_spec by auto. rewrite !bind_ok. fold n1 n2.
  destruct (str_of_spec d) as (A1 & _). destruct (str_of_spec extra) as (B1 & _).
  pose proof (zlen_nonneg _ (str_of d)). pose proof (zlen_nonneg _ (str_of extra)).
  destruct (append_loop_spec (S (length extra)) extra d n1 n2 0) as (d1 & H1 & H2 & H3);
    try (unfold n1, n2; lia).
  { unfold zlen in *. unfold n1, n2. lia. }
  rewrite H1, bind_ok. fold K in H1, H3 |- *. rewrite H2.
  destruct (K + n1 <? zlen d) eqn:E.
  - rewrite setA_ix by (unfold K, n1 in *; lia). eexists. split; [reflexivity|]. rewrite zlen_set. split; auto.
    intros j Hj. rewrite ix_set by (unfold K, n1 in *; lia). rewrite H3 by lia.
    destruct (j =? K + n1) eqn:Ej.
    + replace ((n1 <=? j) && (j <? n1 + K)) with false by lia. replace (j =? n1 + K) with true by lia. reflexivity.
    + replace (n1 + 0) with n1 by lia. destruct ((n1 <=? j) && (j <? n1 + K)) eqn:E1; auto.
      replace (j =? n1 + K) with false by lia. reflexivity.
  - exists d1. split; auto. split; auto. intros j Hj. rewrite H3 by lia. replace (n1 + 0) with n1 by lia.
    destruct ((n1 <=? j) && (j <? n1 + K)) eqn:E1; auto.
    replace (j =? n1 + K) with false by lia. reflexivity.
Qed.

(** ** Insert *)
(** Moving the tail up, from i down to pos: the cells pos+n2 .. i+n2 that exist get the old cells pos .. i. *)
Lemma insert_room_spec : forall fuel d pos n2 i, 0 <= pos -> 0 <= n2 -> pos - 1 <= i ->
  (i < zlen d \/ zlen d <= i + n2) -> i - pos + 1 < Z.of_nat fuel ->
  exists d', insert_room fuel d pos n2 i = Ok d' /\ zlen d' = zlen d /\
    forall j, 0 <= j -> j < zlen d -> ix d' j = if (pos + n2 <=? j) && (j <=? i + n2) then ix d (j - n2) else ix d j.
Proof.
  induction fuel as [|fuel IH]; intros d pos n2 i Hp Hn Hi Hl Hf; [lia|].
  cbn [insert_room]. destruct (i >=? pos) eqn:E.
  - destruct (i + n2 <? zlen d) eqn:E1.
    + stepget. stepset.
      destruct (IH (set_nth (Z.to_nat (i + n2)) (ix d i) d) pos n2 (i - 1)) as (d' & H1 & H2 & H3);
        rewrite ?zlen_set in *; auto; try lia.
      exists d'. split; auto. split; auto.
      intros j Hj Hj2. rewrite H3 by auto.
      destruct ((pos + n2 <=? j) && (j <=? i + n2)) eqn:E2.
      * destruct (j =? i + n2) eqn:E3.
        -- replace ((pos + n2 <=? j) && (j <=? i - 1 + n2)) with false by lia.
           rewrite ix_set by lia. rewrite E3. f_equal. lia.
        -- replace ((pos + n2 <=? j) && (j <=? i - 1 + n2)) with true by lia.
           rewrite ix_set by lia. replace (j - n2 =? i + n2) with false by lia. reflexivity.
      * replace ((pos + n2 <=? j) && (j <=? i - 1 + n2)) with false by lia.
        rewrite ix_set by lia. replace (j =? i + n2) with false by lia. reflexivity.
    + rewrite bind_ok. destruct (IH d pos n2 (i - 1)) as (d' & H1 & H2 & H3); auto; try lia.
      exists d'. split; auto. split; auto. intros j Hj Hj2. rewrite H3 by auto.
      destruct ((pos + n2 <=? j) && (j <=? i + n2)) eqn:E2.
      * replace ((pos + n2 <=? j) && (j <=? i - 1 + n2)) with true by lia. reflexivity.
      * replace ((pos + n2 <=? j) && (j <=? i - 1 + n2)) with false by lia. reflexivity.
  - exists d. split; auto. split; auto. intros j Hj Hj2.
    replace ((pos + n2 <=? j) && (j <=? i + n2)) with false by lia. reflexivity.
Qed.

Lemma insert_copy_spec : forall fuel source d pos n2 i, 0 <= pos -> 0 <= i <= n2 -> n2 <= zlen source ->
  pos + n2 <= zlen d -> n2 - i < Z.of_nat fuel ->
  exists d', insert_copy fuel source d pos n2 i = Ok d' /\ zlen d' = zlen d /\
    forall j, 0 <= j -> ix d' j = if (pos + i <=? j) && (j <? pos + n2) then ix source (j - pos) else ix d j.
Proof.
  induction fuel as [|fuel IH]; intros source d pos n2 i Hp Hi Hn Hl Hf; [lia|].
  cbn [insert_copy]. destruct (i <? n2) eqn:E.
  - stepget. stepset.
    destruct (IH source (set_nth (Z.to_nat (pos + i)) (ix source i) d) pos n2 (i + 1)) as (d' & H1 & H2 & H3);
      rewrite ?zlen_set in *; auto; try lia.
    exists d'. split; auto. split; auto.
    intros j Hj. rewrite H3 by auto. rewrite ix_set by lia.
    destruct ((pos + i <=? j) && (j <? pos + n2)) eqn:E1.
    + destruct (j =? pos + i) eqn:E2.
      * replace ((pos + (i + 1) <=? j) && (j <? pos + n2)) with false by lia. f_equal. lia.
      * replace ((pos + (i + 1) <=? j) && (j <? pos + n2)) with true by lia. reflexivity.
    + replace ((pos + (i + 1) <=? j) && (j <? pos + n2)) with false by lia.
      replace (j =? pos + i) with false by lia. reflexivity.
  - exists d. split; auto. split; auto. intros j Hj.
    replace ((pos + i <=? j) && (j <? pos + n2)) with false by lia. reflexivity.
Qed.

(** If the source does not fit behind pos, copying stops with an index trap. *)
Lemma insert_copy_trap : forall fuel source d pos n2 i, 0 <= pos -> 0 <= i <= n2 -> n2 <= zlen source ->
  zlen d < pos + n2 -> pos + i <= zlen d -> n2 - i < Z.of_nat fuel ->
  insert_copy fuel source d pos n2 i = Trap (-2).
Proof.
  induction fuel as [|fuel IH]; intros source d pos n2 i Hp Hi Hn Hl Hl2 Hf; [lia|].
  cbn [insert_copy]. replace (i <? n2) with true by lia. stepget.
  destruct (pos + i <? zlen d) eqn:E.
  - stepset. apply IH; rewrite ?zlen_set; lia.
  - rewrite setA_trap by lia. reflexivity.
Qed.

Lemma Insert_spec : forall source pos d, zlen source <= 32767 -> zlen d <= 32767 ->
  0 <= pos <= zlen (str_of d) ->
  let n1 := zlen (str_of d) in let n2 := zlen (str_of source) in pos + n2 <= zlen d ->
  exists d', Insert source pos d = Ok d' /\ zlen d' = zlen d /\
    forall j, 0 <= j < zlen d -> ix d' j =
      if j <? pos then ix d j else if j <? pos + n2 then ix source (j - pos)
      else if j <=? n1 + n2 then ix d (j - n2) else ix d j.
Proof.
  intros source pos d Hs Hd Hpos n1 n2 Hfit. unfold Insert. rewrite !Length_spec by auto. rewrite !bind_ok. fold n1 n2.
  destruct (str_of_spec d) as (A1 & A2 & A3). destruct (str_of_spec source) as (B1 & B2 & B3).
  fold n1 in A1, A2, A3, Hpos. fold n2 in B1, B2, B3.
  pose proof (zlen_nonneg _ (str_of d)). pose proof (zlen_nonneg _ (str_of source)).
  replace (pos <? 0) with false by lia. replace (pos >? n1) with false by lia.
  assert (R : exists d1, (if pos + n2 <? zlen d then insert_room (S (S (length d))) d pos n2 n1 else Ok d) = Ok d1 /\
     zlen d1 = zlen d /\ forall j, 0 <= j < zlen d -> ix d1 j = if (pos + n2 <=? j) && (j <=? n1 + n2) then ix d (j - n2) else ix d j).
  { destruct (pos + n2 <? zlen d) eqn:E.
    - destruct (Z.eq_dec n1 (zlen d)) as [E1|E1].
      + destruct (Z.eq_dec n2 0) as [E2|E2].
        * (* reading dest[LEN] is guarded by i + n2 < LEN *)
          destruct (insert_room_spec (S (S (length d))) d pos n2 n1) as (d1 & H1 & H2 & H3); try lia.
          { unfold zlen in *. lia. }
          exists d1. split; auto. split; auto. intros j Hj. apply H3; lia.
        * destruct (insert_room_spec (S (S (length d))) d pos n2 n1) as (d1 & H1 & H2 & H3); try lia.
          { unfold zlen in *. lia. }
          exists d1. split; auto. split; auto. intros j Hj. apply H3; lia.
      + destruct (insert_room_spec (S (S (length d))) d pos n2 n1) as (d1 & H1 & H2 & H3); try lia.
        { unfold zlen in *. lia. }
        exists d1. split; auto. split; auto. intros j Hj. apply H3; lia.
    - exists d. split; auto. split; auto. intros j Hj.
      replace ((pos + n2 <=? j) && (j <=? n1 + n2)) with false by lia. reflexivity. }
  destruct R as (d1 & R1 & R2 & R3). rewrite R1, bind_ok.
  destruct (insert_copy_spec (S (length source)) source d1 pos n2 0) as (d2 & H1 & H2 & H3); try lia.
  { unfold zlen in *. lia. }
  exists d2. split; auto. split; [lia|]. intros j Hj. rewrite H3 by lia. replace (pos + 0) with pos by lia.
  rewrite R3 by lia.
  destruct (j <? pos) eqn:E1.
  - replace ((pos <=? j) && (j <? pos + n2)) with false by lia.
    replace ((pos + n2 <=? j) && (j <=? n1 + n2)) with false by lia. reflexivity.
  - destruct (j <? pos + n2) eqn:E2.
    + replace ((pos <=? j) && true) with true by lia. reflexivity.
    + rewrite andb_false_r. destruct (j <=? n1 + n2) eqn:E3.
      * replace ((pos + n2 <=? j) && true) with true by lia. reflexivity.
      * rewrite andb_false_r. reflexivity.
Qed.

(** ** Delete *)
Lemma delete_loop_spec : forall fuel s len n i, 0 <= n -> n <= i <= len -> len <= zlen s ->
  len - i < Z.of_nat fuel ->
  exists s', delete_loop fuel s len n i = Ok (s', len) /\ zlen s' = zlen s /\
    forall j, 0 <= j -> j < zlen s -> ix s' j = if (i - n <=? j) && (j <? len - n) then ix s (j + n) else ix s j.
Proof.
  induction fuel as [|fuel IH]; intros s len n i Hn Hi Hl Hf; [lia|].
  cbn [delete_loop]. destruct (i <? len) eqn:E.
  - stepget. stepset.
    destruct (IH (set_nth (Z.to_nat (i - n)) (ix s i) s) len n (i + 1)) as (s' & H1 & H2 & H3);
      rewrite ?zlen_set in *; auto; try lia.
    exists s'. split; auto. split; auto. intros j Hj Hj2. rewrite H3 by auto. rewrite !ix_set by lia.
    destruct ((i - n <=? j) && (j <? len - n)) eqn:E1.
    + destruct (j =? i - n) eqn:E2.
      * replace ((i + 1 - n <=? j) && (j <? len - n)) with false by lia. f_equal. lia.
      * replace ((i + 1 - n <=? j) && (j <? len - n)) with true by lia.
        replace (j + n =? i - n) with false by lia. reflexivity.
    + replace ((i + 1 - n <=? j) && (j <? len - n)) with false by lia.
      replace (j =? i - n) with false by lia. reflexivity.
  - exists s. replace i with len by lia. split; auto. split; auto. intros j Hj Hj2.
    replace ((len - n <=? j) && (j <? len - n)) with false by lia. reflexivity.
Qed.

Lemma ix_extract : forall (a : list Z) j, 0 <= j < zlen a -> In (ix a j) a.
Proof. intros a j H. unfold ix, zlen in *. apply nth_In. lia. Qed.

(** In terms of strings: the result of Delete in range. *)
Lemma Delete_spec : forall s pos n, zlen s <= 32767 -> 0 <= pos < zlen (str_of s) -> 0 <= n ->
  exists s', Delete s pos n = Ok s' /\ zlen s' = zlen s /\
    str_of s' = delete_at (str_of s) (Z.to_nat pos) (Z.to_nat n).
Proof.
  intros s pos n Hs Hpos Hn. unfold Delete. rewrite Length_spec by auto. rewrite bind_ok.
  destruct (str_of_spec s) as (A1 & A2 & A3).
  replace ((0 <=? pos) && (pos >=? zlen (str_of s))) with false by lia.
  replace (pos <? 0) with false by lia. unfold delete_at.
  set (len := zlen (str_of s)) in *.
  replace (Z.to_nat pos + Z.to_nat n)%nat with (Z.to_nat (pos + n)) by lia.
  destruct (pos + n <? len) eqn:E.
  - destruct (delete_loop_spec (S (length s)) s len n (pos + n)) as (s1 & H1 & H2 & H3); try lia.
    { unfold zlen in *. lia. }
    rewrite H1, bind_ok. rewrite H2. 
    assert (Sp : forall s2, zlen s2 = zlen s -> (forall j, 0 <= j < len - n -> ix s2 j = if pos <=? j then ix s (j + n) else ix s j) ->
       (len - n < zlen s -> ix s2 (len - n) = 0) ->
       str_of s2 = firstn (Z.to_nat pos) (str_of s) ++ skipn (Z.to_nat (pos + n)) (str_of s)).
    { intros s2 L P T. 
      assert (Zl : zlen (firstn (Z.to_nat pos) (str_of s) ++ skipn (Z.to_nat (pos + n)) (str_of s)) = len - n).
      { rewrite zlen_app, zlen_firstn, zlen_skipn by (fold len; lia). fold len. lia. }
      apply str_of_unique; rewrite Zl; try lia.
      - intros j Hj. rewrite ix_app by lia. rewrite zlen_firstn by (fold len; lia). rewrite P by lia.
        destruct (pos <=? j) eqn:E1.
        + replace (j <? pos) with false by lia. rewrite ix_skipn by lia.
          replace (pos + n + (j - pos)) with (j + n) by lia. destruct (A2 (j + n) ltac:(lia)). split; congruence.
        + replace (j <? pos) with true by lia. rewrite ix_firstn by lia.
          destruct (A2 j ltac:(lia)). split; congruence. }
    destruct (len - n <? zlen s) eqn:E2.
    + rewrite setA_ix by lia. eexists. split; [reflexivity|]. rewrite zlen_set. split; auto.
      apply Sp; rewrite ?zlen_set; auto.
      * intros j Hj. rewrite ix_set by lia. replace (j =? len - n) with false by lia.
        rewrite H3 by lia. replace (pos + n - n) with pos by lia.
        destruct (pos <=? j) eqn:E3.
        -- replace (true && (j <? len - n)) with true by lia. reflexivity.
        -- reflexivity.
      * intros _. rewrite ix_set by lia. replace (len - n =? len - n) with true by lia. reflexivity.
    + exists s1. split; auto. split; auto. apply Sp; auto; try lia.
      intros j Hj. rewrite H3 by lia. replace (pos + n - n) with pos by lia.
      destruct (pos <=? j) eqn:E3.
      * replace (true && (j <? len - n)) with true by lia. reflexivity.
      * reflexivity.
  - rewrite setA_ix by lia. eexists. split; [reflexivity|]. rewrite zlen_set. split; auto.
    rewrite (skipn_all2 (str_of s)) by (unfold len, zlen in *; lia). rewrite app_nil_r.
    apply str_of_unique.
    + rewrite zlen_firstn, zlen_set by (fold len; lia). lia.
    + rewrite zlen_firstn by (fold len; lia). intros j Hj. rewrite ix_set by lia.
      replace (j =? pos) with false by lia. rewrite ix_firstn by lia. destruct (A2 j ltac:(lia)). split; congruence.
    + right. rewrite zlen_firstn by (fold len; lia). rewrite ix_set by lia. replace (pos =? pos) with true by lia. reflexivity.
Qed.

Lemma Delete_outside : forall s pos n, zlen s <= 32767 -> zlen (str_of s) <= pos -> Delete s pos n = Ok s.
Proof.
  intros s pos n Hs Hp. unfold Delete. rewrite Length_spec by auto. rewrite bind_ok.
  pose proof (zlen_nonneg _ (str_of s)).
  replace ((0 <=? pos) && (pos >=? zlen (str_of s))) with true by lia. reflexivity.
Qed.

(** ** Strings of Append and Insert *)
Lemma Append_str : forall extra d, zlen extra <= 32767 -> zlen d <= 32767 ->
  exists d', Append extra d = Ok d' /\ zlen d' = zlen d /\
    str_of d' = firstn (length d) (str_of d ++ str_of extra).
Proof.
  intros extra d He Hd. destruct (Append_spec extra d He Hd) as (d' & H1 & H2 & H3).
  destruct (str_of_spec d) as (A1 & A2 & A3). destruct (str_of_spec extra) as (B1 & B2 & B3).
  exists d'. split; auto. split; auto.
  set (n1 := zlen (str_of d)) in *. set (n2 := zlen (str_of extra)) in *. set (K := Z.min n2 (zlen d - n1)) in *.
  pose proof (zlen_nonneg _ (str_of d)). pose proof (zlen_nonneg _ (str_of extra)).
  assert (Zl : zlen (firstn (length d) (str_of d ++ str_of extra)) = n1 + K).
  { unfold zlen at 1. rewrite firstn_length, app_length. unfold K, n1, n2, zlen in *. lia. }
  replace (length d) with (Z.to_nat (zlen d)) in * by (unfold zlen; lia).
  apply str_of_unique; rewrite Zl.
  - unfold K. lia.
  - intros j Hj. rewrite ix_firstn by (unfold K in *; lia). rewrite H3 by (unfold K in *; lia).
    rewrite ix_app by lia. fold n1. destruct (j <? n1) eqn:E.
    + replace ((n1 <=? j) && (j <? n1 + K)) with false by lia. replace (j =? n1 + K) with false by lia.
      destruct (A2 j ltac:(lia)). split; congruence.
    + replace ((n1 <=? j) && (j <? n1 + K)) with true by lia.
      destruct (B2 (j - n1) ltac:(unfold K in *; lia)). split; congruence.
  - destruct (Z.eq_dec (n1 + K) (zlen d')); [left; auto|right].
    rewrite H3 by (unfold K in *; lia). replace ((n1 <=? n1 + K) && (n1 + K <? n1 + K)) with false by lia.
    replace (n1 + K =? n1 + K) with true by lia. reflexivity.
Qed.

Lemma Insert_str : forall source pos d, zlen source <= 32767 -> zlen d <= 32767 ->
  0 <= pos <= zlen (str_of d) -> pos + zlen (str_of source) <= zlen d ->
  exists d', Insert source pos d = Ok d' /\ zlen d' = zlen d /\
    str_of d' = firstn (length d) (insert_at (str_of source) (Z.to_nat pos) (str_of d)).
Proof.
  intros source pos d He Hd Hpos Hfit. destruct (Insert_spec source pos d He Hd Hpos Hfit) as (d' & H1 & H2 & H3).
  destruct (str_of_spec d) as (A1 & A2 & A3). destruct (str_of_spec source) as (B1 & B2 & B3).
  exists d'. split; auto. split; auto. unfold insert_at.
  set (n1 := zlen (str_of d)) in *. set (n2 := zlen (str_of source)) in *.
  pose proof (zlen_nonneg _ (str_of d)). pose proof (zlen_nonneg _ (str_of source)).
  set (full := firstn (Z.to_nat pos) (str_of d) ++ str_of source ++ skipn (Z.to_nat pos) (str_of d)).
  assert (Zf : zlen full = n1 + n2).
  { unfold full. rewrite !zlen_app, zlen_firstn, zlen_skipn by (fold n1; lia). fold n1 n2. lia. }
  assert (Zl : zlen (firstn (length d) full) = Z.min (n1 + n2) (zlen d)).
  { unfold zlen at 1. rewrite firstn_length. rewrite <- Zf. unfold zlen. lia. }
  assert (Fx : forall j, 0 <= j < n1 + n2 -> ix full j = if j <? pos then ix d j else if j <? pos + n2 then ix source (j - pos) else ix d (j - n2)).
  { intros j Hj. unfold full. rewrite ix_app by lia. rewrite zlen_firstn by (fold n1; lia).
    destruct (j <? pos) eqn:E; [rewrite ix_firstn by lia; apply A2; lia|].
    rewrite ix_app by lia. fold n2. destruct (j <? pos + n2) eqn:E2.
    - replace (j - pos <? n2) with true by lia. apply B2. lia.
    - replace (j - pos <? n2) with false by lia. rewrite ix_skipn by lia.
      replace (pos + (j - pos - n2)) with (j - n2) by lia. apply A2. lia. }
  replace (length d) with (Z.to_nat (zlen d)) in * by (unfold zlen; lia).
  apply str_of_unique; rewrite Zl.
  - lia.
  - intros j Hj. rewrite ix_firstn by lia. rewrite H3, Fx by lia.
    destruct (j <? pos) eqn:E1; [split; auto; apply A2; lia|].
    destruct (j <? pos + n2) eqn:E2; [split; auto; apply B2; lia|].
    replace (j <=? n1 + n2) with true by lia. split; auto. apply A2. lia.
  - destruct (Z.eq_dec (Z.min (n1 + n2) (zlen d)) (zlen d')); [left; auto|right].
    rewrite H3 by lia. replace (Z.min (n1 + n2) (zlen d)) with (n1 + n2) by lia.
    replace (n1 + n2 <? pos) with false by lia. replace (n1 + n2 <? pos + n2) with (n1 <? pos) by lia.
    replace (n1 <? pos) with false by lia. replace (n1 + n2 <=? n1 + n2) with true by lia.
    replace (n1 + n2 - n2) with n1 by lia. apply A3. lia.
Qed.

Lemma Insert_beyond : forall source pos d, zlen source <= 32767 -> zlen d <= 32767 ->
  zlen (str_of d) < pos -> Insert source pos d = Ok d.
Proof.
  intros source pos d Hs Hd Hp. unfold Insert. rewrite !Length_spec by auto. rewrite !bind_ok.
  pose proof (zlen_nonneg _ (str_of d)).
  replace (pos <? 0) with false by lia. replace (pos >? zlen (str_of d)) with true by lia.
  destruct (Append_spec d source Hd Hs) as (x & Hx & _). rewrite Hx. reflexivity.
Qed.

Lemma Insert_overflow_traps : forall source pos d, zlen source <= 32767 -> zlen d <= 32767 ->
  0 <= pos <= zlen (str_of d) -> zlen d < pos + zlen (str_of source) -> Insert source pos d = Trap (-2).
Proof.
  intros source pos d Hs Hd Hp Hf. unfold Insert. rewrite !Length_spec by auto. rewrite !bind_ok.
  destruct (str_of_spec d) as (A1 & A2 & A3). destruct (str_of_spec source) as (B1 & B2 & B3).
  pose proof (zlen_nonneg _ (str_of d)). pose proof (zlen_nonneg _ (str_of source)).
  replace (pos <? 0) with false by lia. replace (pos >? zlen (str_of d)) with false by lia.
  replace (pos + zlen (str_of source) <? zlen d) with false by lia. rewrite bind_ok.
  apply insert_copy_trap; try lia. unfold zlen in *. lia.
Qed.

(** ** Extract *)
Lemma extract_loop_spec : forall fuel source d pos n destLen i, 0 <= pos -> terminated source ->
  0 <= destLen -> destLen < zlen d -> 0 <= i -> pos + i <= zlen (str_of source) -> (i <= n \/ n < 0 /\ i = 0) ->
  zlen source - (pos + i) < Z.of_nat fuel ->
  let K := Z.max 0 (Z.min n (zlen (str_of source) - pos)) in
  exists d', extract_loop fuel source d pos n destLen i = Ok (d', K) /\ zlen d' = zlen d /\
    forall j, 0 <= j -> ix d' j = if (i <=? j) && (j <? Z.min K destLen) then ix source (pos + j) else ix d j.
Proof.
  induction fuel as [|fuel IH]; intros source d pos n destLen i Hp Ht Hd Hd2 Hi Hpi Hn Hf K;
    destruct (str_of_spec source) as (B1 & B2 & B3); pose proof (proj1 (terminated_ix source) Ht) as T;
    [lia|].
  cbn [extract_loop]. replace (pos + i <=? zlen source) with true by lia. stepget.
  destruct (negb (ix source (pos + i) =? 0) && (i <? n)) eqn:E.
  - assert (Hlt : pos + i < zlen (str_of source)).
    { destruct (Z.eq_dec (pos + i) (zlen (str_of source))) as [He|]; [|lia].
      rewrite He in E. rewrite B3 in E by lia. simpl in E. discriminate. }
    destruct (i <? destLen) eqn:E1.
    + stepset. destruct (IH source (set_nth (Z.to_nat i) (ix source (pos + i)) d) pos n destLen (i + 1)) as (d' & H1 & H2 & H3);
        rewrite ?zlen_set in *; auto; try lia.
      exists d'. split; auto. split; auto. intros j Hj. fold K in H3. rewrite H3 by auto. rewrite ix_set by lia.
      assert (i < K) by (unfold K; lia).
      destruct ((i <=? j) && (j <? Z.min K destLen)) eqn:E2.
      * destruct (j =? i) eqn:E3.
        -- replace ((i + 1 <=? j) && (j <? Z.min K destLen)) with false by lia. f_equal. lia.
        -- replace ((i + 1 <=? j) && (j <? Z.min K destLen)) with true by lia. reflexivity.
      * replace ((i + 1 <=? j) && (j <? Z.min K destLen)) with false by lia.
        replace (j =? i) with false by lia. reflexivity.
    + rewrite bind_ok. destruct (IH source d pos n destLen (i + 1)) as (d' & H1 & H2 & H3); auto; try lia.
      exists d'. split; auto. split; auto. intros j Hj. fold K in H3. rewrite H3 by auto.
      replace ((i + 1 <=? j) && (j <? Z.min K destLen)) with false by lia.
      replace ((i <=? j) && (j <? Z.min K destLen)) with false by lia. reflexivity.
  - assert (K = i).
    { unfold K. destruct (Z.eq_dec (pos + i) (zlen (str_of source))) as [He|]; [lia|].
      destruct (B2 (pos + i) ltac:(lia)) as [_ N]. destruct (ix source (pos + i) =? 0) eqn:Ez; [lia|].
      simpl in E. lia. }
    exists d. rewrite H. split; auto. split; auto. intros j Hj.
    replace ((i <=? j) && (j <? Z.min i destLen)) with false by lia. reflexivity.
Qed.

Lemma Extract_spec : forall source pos n d, zlen source <= 32767 -> zlen d <= 32767 -> terminated source ->
  0 <= pos < zlen (str_of source) -> 0 <= n -> 1 <= zlen d ->
  let K := Z.min n (zlen (str_of source) - pos) in
  (K < zlen d -> exists d', Extract source pos n d = Ok d' /\ zlen d' = zlen d /\ terminated d' /\
      str_of d' = extract_at (str_of source) (Z.to_nat pos) (Z.to_nat n)) /\
  (zlen d <= K -> Extract source pos n d = Trap (-2)).
Proof.
  intros source pos n d Hs Hd Ht Hp Hn Hd1 K. unfold Extract. rewrite Length_spec by auto. rewrite bind_ok.
  destruct (str_of_spec source) as (B1 & B2 & B3). pose proof (proj1 (terminated_ix source) Ht) as T.
  replace (pos <? 0) with false by lia. replace (pos >=? zlen (str_of source)) with false by lia.
  destruct (extract_loop_spec (S (S (length source))) source d pos n (zlen d - 1) 0) as (d' & H1 & H2 & H3); auto; try lia.
  { unfold zlen in *; lia. }
  rewrite H1, bind_ok. replace (Z.max 0 (Z.min n (zlen (str_of source) - pos))) with K in * by (unfold K; lia).
  split; intro HK.
  - rewrite setA_ix by (unfold K in *; lia). eexists. split; [reflexivity|]. rewrite zlen_set. split; auto. split.
    { apply terminated_at with (j := K); rewrite ?zlen_set; [unfold K in *; lia|].
      rewrite ix_set by (unfold K in *; lia). replace (K =? K) with true by lia. reflexivity. }
    unfold extract_at.
    assert (Zl : zlen (firstn (Z.to_nat n) (skipn (Z.to_nat pos) (str_of source))) = K).
    { unfold zlen at 1. rewrite firstn_length, skipn_length. unfold K, zlen in *. lia. }
    apply str_of_unique; rewrite Zl; rewrite ?zlen_set; try lia.
    + intros j Hj. rewrite ix_set by (unfold K in *; lia). replace (j =? K) with false by lia.
      rewrite H3 by lia. replace ((0 <=? j) && (j <? Z.min K (zlen d - 1))) with true by lia.
      rewrite ix_firstn by (unfold K in *; lia). rewrite ix_skipn by lia.
      destruct (B2 (pos + j) ltac:(unfold K in *; lia)). split; congruence.
    + right. rewrite ix_set by (unfold K in *; lia). replace (K =? K) with true by lia. reflexivity.
  - rewrite setA_trap by lia. reflexivity.
Qed.

(** ** Pos *)
Definition match_at (p s : list Z) (i : Z) (k : Z) : Prop := forall j, 0 <= j < k -> ix s (i + j) = ix p j.

Lemma pos_inner_spec : forall fuel p s n2 i j, 0 <= i -> 0 <= j <= n2 -> n2 <= zlen p -> i + n2 <= zlen s ->
  n2 - j < Z.of_nat fuel -> match_at p s i j ->
  exists k, pos_inner fuel p s n2 i j = Ok k /\ (k = n2 <-> match_at p s i n2).
Proof.
  induction fuel as [|fuel IH]; intros p s n2 i j Hi Hj Hp Hs Hf Hm; [lia|].
  cbn [pos_inner]. destruct (j <? n2) eqn:E.
  - stepget. stepget. destruct (ix s (i + j) =? ix p j) eqn:E1.
    + apply IH; try lia. intros x Hx. destruct (Z.eq_dec x j); [subst; lia|]. apply Hm. lia.
    + exists j. split; auto. split; [lia|]. intro H. specialize (H j ltac:(lia)). lia.
  - exists j. assert (j = n2) by lia. subst. split; auto. tauto.
Qed.

Lemma pos_outer_spec : forall fuel p s n1 n2 i, 1 <= n2 <= zlen p -> n1 <= zlen s -> 0 <= i ->
  Z.max 0 (n1 - n2 - i + 1) < Z.of_nat fuel ->
  exists r, pos_outer fuel p s n1 n2 i = Ok r /\
    ((r = -1 /\ forall k, i <= k <= n1 - n2 -> ~ match_at p s k n2) \/
     (i <= r <= n1 - n2 /\ match_at p s r n2 /\ forall k, i <= k < r -> ~ match_at p s k n2)).
Proof.
  induction fuel as [|fuel IH]; intros p s n1 n2 i Hn2 Hn1 Hi Hf.
  - lia.
  - cbn [pos_outer]. destruct (i <=? n1 - n2) eqn:E.
    + stepget. stepget.
      assert (Next : ~ match_at p s i n2 -> exists r, pos_outer fuel p s n1 n2 (i + 1) = Ok r /\
        ((r = -1 /\ forall k, i <= k <= n1 - n2 -> ~ match_at p s k n2) \/
         (i <= r <= n1 - n2 /\ match_at p s r n2 /\ forall k, i <= k < r -> ~ match_at p s k n2))).
      { intro No. destruct (IH p s n1 n2 (i + 1)) as (r & H1 & H2); try lia. exists r. split; auto.
        destruct H2 as [[H2 H3]|(H2 & H3 & H4)].
        - left. split; auto. intros k Hk. destruct (Z.eq_dec k i); [subst; auto|]. apply H3. lia.
        - right. split; [lia|]. split; auto. intros k Hk. destruct (Z.eq_dec k i); [subst; auto|]. apply H4. lia. }
      destruct (ix s i =? ix p 0) eqn:E1.
      * destruct (pos_inner_spec (S (length p)) p s n2 i 1) as (j & Hj & Hm); try lia.
        { unfold zlen in *; lia. }
        { intros x Hx. assert (x = 0) by lia. subst. replace (i + 0) with i by lia. lia. }
        rewrite Hj, bind_ok. destruct (j =? n2) eqn:E2.
        -- exists i. split; auto. right. split; [lia|]. split; [apply Hm; lia|]. intros k Hk. lia.
        -- apply Next. rewrite <- Hm. lia.
      * apply Next. intro H. specialize (H 0 ltac:(lia)). replace (i + 0) with i in H by lia. lia.
    + exists (-1). split; auto. left. split; auto. intros k Hk. lia.
Qed.
