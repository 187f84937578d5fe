From Verif Require Import Base ArrZ StringsModel StringsSpec StringsProofs.

Lemma glob_nil_inv : forall s, glob s [] -> s = [].
Proof. intros s H. inversion H; auto. Qed.

Lemma glob_app : forall p q s, glob s (p ++ q) <-> exists s1 s2, s = s1 ++ s2 /\ glob s1 p /\ glob s2 q.
Proof.
  induction p as [|c p IH]; intros q s; split.
  - intro H. exists [], s. repeat split; auto. constructor.
  - intros (s1 & s2 & -> & H1 & H2). apply glob_nil_inv in H1. subst. auto.
  - simpl. intro H. inversion H as [|c' s' p' Hc Hg|u s' p' Hg]; subst.
    + apply IH in Hg. destruct Hg as (s1 & s2 & -> & H1 & H2).
      exists (c :: s1), s2. repeat split; auto. constructor; auto.
    + apply IH in Hg. destruct Hg as (s1 & s2 & -> & H1 & H2).
      exists (u ++ s1), s2. rewrite app_assoc. repeat split; auto. constructor; auto.
  - intros (s1 & s2 & -> & H1 & H2). inversion H1 as [|c' s' p' Hc Hg|u s' p' Hg]; subst; simpl.
    + constructor; auto. apply IH. eauto.
    + rewrite <- app_assoc. constructor. apply IH. eauto.
Qed.

Lemma glob_single : forall c s, c <> 42 -> (glob s [c] <-> s = [c]).
Proof.
  intros c s Hc. split.
  - intro H. inversion H; subst; [|congruence]. f_equal. now apply glob_nil_inv.
  - intros ->. constructor; auto. constructor.
Qed.
Lemma glob_onestar : forall s, glob s [42].
Proof. intros s. rewrite <- (app_nil_r s). constructor. constructor. Qed.

Lemma glob_snoc : forall c a s p, c <> 42 -> (glob (s ++ [a]) (p ++ [c]) <-> a = c /\ glob s p).
Proof.
  intros c a s p Hc. rewrite glob_app. split.
  - intros (s1 & s2 & E & H1 & H2). apply glob_single in H2; auto. subst.
    apply app_inj_tail in E. destruct E; subst; auto.
  - intros [-> H]. exists s, [c]. repeat split; auto. now apply glob_single.
Qed.
Lemma glob_snoc_nil : forall c p, c <> 42 -> ~ glob [] (p ++ [c]).
Proof.
  intros c p Hc H. apply glob_app in H. destruct H as (s1 & s2 & E & H1 & H2).
  apply glob_single in H2; auto. subst. destruct s1; discriminate.
Qed.
Lemma glob_snoc_star : forall s p, glob s (p ++ [42]) <-> exists s1 s2, s = s1 ++ s2 /\ glob s1 p.
Proof.
  intros s p. rewrite glob_app. split.
  - intros (s1 & s2 & E & H1 & H2). eauto.
  - intros (s1 & s2 & E & H1). exists s1, s2. repeat split; auto. apply glob_onestar.
Qed.

(** The first n+1 characters. *)
Definition pre (a : list Z) (n : Z) : list Z := firstn (Z.to_nat (n + 1)) a.
Lemma pre_neg : forall a n, n < 0 -> pre a n = [].
Proof. intros a n H. unfold pre. replace (Z.to_nat (n + 1)) with 0%nat by lia. reflexivity. Qed.
Lemma firstn_S_nth : forall k (a : list Z), (k < length a)%nat -> firstn (S k) a = firstn k a ++ [nth k a 0].
Proof.
  induction k as [|k IH]; intros [|x a] H; simpl in *; try lia; auto.
  f_equal. apply IH. lia.
Qed.
Lemma pre_snoc : forall a n, 0 <= n < zlen a -> pre a n = pre a (n - 1) ++ [ix a n].
Proof.
  intros a n H. unfold pre, ix, zlen in *. replace (n - 1 + 1) with n by lia.
  replace (Z.to_nat (n + 1)) with (S (Z.to_nat n)) by lia. apply firstn_S_nth. lia.
Qed.
Lemma pre_prefix : forall a n s1 s2, -1 <= n < zlen a -> pre a n = s1 ++ s2 ->
  exists k, -1 <= k <= n /\ s1 = pre a k.
Proof.
  intros a n s1 s2 H E. exists (zlen s1 - 1).
  assert (L : zlen (pre a n) = n + 1) by (unfold pre; apply zlen_firstn; lia).
  rewrite E, zlen_app in L. pose proof (zlen_nonneg _ s1). pose proof (zlen_nonneg _ s2).
  split; [lia|]. unfold pre in *. replace (Z.to_nat (zlen s1 - 1 + 1)) with (length s1) by (unfold zlen; lia).
  assert (E2 : firstn (length s1) (firstn (Z.to_nat (n + 1)) a) = s1).
  { rewrite E. rewrite firstn_app, Nat.sub_diag, firstn_all. simpl. apply app_nil_r. }
  rewrite firstn_firstn in E2. rewrite <- E2 at 1. f_equal. unfold zlen in *. lia.
Qed.
Lemma pre_split : forall a k n, -1 <= k <= n -> n < zlen a -> exists s2, pre a n = pre a k ++ s2.
Proof.
  intros a k n H Hn. exists (skipn (Z.to_nat (k + 1)) (pre a n)).
  rewrite <- (firstn_skipn (Z.to_nat (k + 1)) (pre a n)) at 1. f_equal.
  unfold pre. rewrite firstn_firstn. f_equal. lia.
Qed.

Section Match.
Variables (name mask : list Z).
Definition G (n m : Z) : Prop := glob (pre name n) (pre mask m).

Lemma m_tail_spec : forall fuel n m, -1 <= n < zlen name -> -1 <= m < zlen mask -> m + 1 < Z.of_nat fuel ->
  (m_tail fuel name mask n m = Ok (inl false) /\ ~ G n m) \/
  (exists n' m', m_tail fuel name mask n m = Ok (inr (n', m')) /\ -1 <= n' <= n /\ -1 <= m' <= m /\
     (G n m <-> G n' m') /\ (n' < 0 \/ m' < 0 \/ ix mask m' = star)).
Proof.
  induction fuel as [|fuel IH]; intros n m Hn Hm Hf; [lia|]. cbn [m_tail].
  destruct ((n >=? 0) && (m >=? 0)) eqn:E.
  - stepget. destruct (ix mask m =? star) eqn:E1.
    + right. exists n, m. repeat split; auto; try lia. 
    + stepget. unfold G. rewrite (pre_snoc name n), (pre_snoc mask m) by lia.
      destruct (negb (ix name n =? ix mask m)) eqn:E2.
      * left. split; auto. rewrite glob_snoc by (unfold star in *; lia). intros [X _]. lia.
      * destruct (IH (n - 1) (m - 1)) as [[H1 H2]|(n' & m' & H1 & H2 & H3 & H4 & H5)]; try lia.
        -- left. split; auto. rewrite glob_snoc by (unfold star in *; lia). tauto.
        -- right. exists n', m'. split; auto. split; [lia|]. split; [lia|]. split; auto.
           rewrite glob_snoc by (unfold star in *; lia). unfold G in H4. rewrite H4.
           split; [tauto|]. intro. split; auto. lia.
  - right. exists n, m. repeat split; auto; try lia.
Qed.

Lemma m_stars_spec : forall fuel m, -1 <= m < zlen mask -> m + 1 < Z.of_nat fuel ->
  exists m', m_stars fuel mask m = Ok m' /\ -1 <= m' <= m /\ (m' < 0 \/ ix mask m' <> star) /\
    (0 <= m -> ix mask m = star -> m' < m) /\
    (m' < m -> forall s, glob s (pre mask m) <-> exists s1 s2, s = s1 ++ s2 /\ glob s1 (pre mask m')).
Proof.
  induction fuel as [|fuel IH]; intros m Hm Hf; [lia|]. cbn [m_stars].
  destruct (m >=? 0) eqn:E.
  - stepget. destruct (ix mask m =? star) eqn:E1.
    + destruct (IH (m - 1)) as (m' & H1 & H2 & H3 & H4 & H5); try lia.
      exists m'. split; auto. split; [lia|]. split; auto. split; [lia|].
      intros _ s. rewrite (pre_snoc mask m) by lia. replace (ix mask m) with 42 by (unfold star in *; lia).
      rewrite glob_snoc_star. destruct (Z.eq_dec m' (m - 1)) as [->|Hne]; [reflexivity|].
      split.
      * intros (s1 & s2 & -> & Hg). apply H5 in Hg; [|lia]. destruct Hg as (s3 & s4 & -> & Hg).
        exists s3, (s4 ++ s2). rewrite app_assoc. auto.
      * intros (s1 & s2 & -> & Hg). exists (s1 ++ s2), []. rewrite app_nil_r. split; auto.
        apply H5; [lia|]. eauto.
    + exists m. split; auto. split; [lia|]. split; [right; lia|]. split; lia.
  - exists m. split; auto. split; [lia|]. split; [left; lia|]. split; lia.
Qed.

Lemma m_try_spec : forall (f : Z -> Z -> res bool) fuel n m, -1 <= n -> n + 1 < Z.of_nat fuel ->
  (forall k, 0 <= k <= n -> exists b, f k m = Ok b /\ (b = true <-> G k m)) ->
  exists b, m_try f fuel n m = Ok b /\ (b = true <-> exists k, 0 <= k <= n /\ G k m).
Proof.
  intros f fuel. induction fuel as [|fuel IH]; intros n m Hn Hf Hk; [lia|]. cbn [m_try].
  destruct (n >=? 0) eqn:E.
  - destruct (Hk n ltac:(lia)) as (b & Hb & Hg). rewrite Hb, bind_ok. destruct b.
    + exists true. split; auto. split; auto. intros _. exists n. split; [lia|]. now apply Hg.
    + destruct (IH (n - 1) m) as (b & Hb2 & Hg2); try lia.
      { intros k Hk2. apply Hk. lia. }
      exists b. split; auto. rewrite Hg2. split.
      * intros (k & H1 & H2). exists k. split; [lia|auto].
      * intros (k & H1 & H2). destruct (Z.eq_dec k n) as [->|]; [apply Hg in H2; discriminate|].
        exists k. split; [lia|auto].
  - exists false. split; auto. split; [discriminate|]. intros (k & H1 & _). lia.
Qed.

Lemma M_spec : forall fuel n m, -1 <= n < zlen name -> -1 <= m < zlen mask -> m + 1 < Z.of_nat fuel ->
  exists b, M fuel name mask n m = Ok b /\ (b = true <-> G n m).
Proof.
  induction fuel as [|fuel IH]; intros n m Hn Hm Hf; [lia|]. cbn [M].
  destruct (m_tail_spec (S (length mask)) n m Hn Hm ltac:(unfold zlen in *; lia))
    as [[H1 H2]|(n' & m' & H1 & H2 & H3 & H4 & H5)]; rewrite H1, bind_ok.
  { exists false. split; auto. split; [discriminate|tauto]. }
  setoid_rewrite H4. clear H1 H4. destruct (m' <? 0) eqn:E.
  { eexists. split; [reflexivity|]. unfold G. rewrite (pre_neg mask m') by lia. split.
    - intro. rewrite pre_neg by lia. constructor.
    - intro Hg. apply glob_nil_inv in Hg.
      assert (L : zlen (pre name n') = n' + 1) by (unfold pre; apply zlen_firstn; lia).
      rewrite Hg, zlen_nil in L. lia. }
  destruct (m_stars_spec (S (length mask)) m' ltac:(lia) ltac:(unfold zlen in *; lia)) as (m2 & S1 & S2 & S3 & S4 & S5).
  rewrite S1, bind_ok. destruct (m2 <? 0) eqn:E2.
  { exists true. split; auto. split; auto. intros _. unfold G. apply S5; [lia|].
    exists [], (pre name n'). split; auto. rewrite pre_neg by lia. constructor. }
  destruct S3 as [S3|S3]; [lia|].
  assert (Ns : pre mask m2 = pre mask (m2 - 1) ++ [ix mask m2]) by (apply pre_snoc; lia).
  destruct (Z.eq_dec m2 m') as [Heq|Hne].
  - (* no star: then the name is exhausted *)
    assert (Nn : n' < 0).
    { destruct H5 as [H5|[H5|H5]]; try lia.  }
    destruct (m_try_spec (M fuel name mask) (S (length name)) n' m2) as (b & Hb & Hg);
      try (unfold zlen in *; lia).
    exists b. split; auto. rewrite Hg. split.
    + intros (k & Hk & _). lia.
    + intro Hx. exfalso. unfold G in Hx. rewrite (pre_neg name n') in Hx by lia. subst m2. rewrite Ns in Hx.
      apply glob_snoc_nil in Hx; auto.
  - destruct (m_try_spec (M fuel name mask) (S (length name)) n' m2) as (b & Hb & Hg);
      try (unfold zlen in *; lia).
    { intros k Hk. apply IH; try lia. }
    exists b. split; auto. rewrite Hg. unfold G. rewrite S5 by lia. split.
    + intros (k & Hk & Hgk). destruct (pre_split name k n') as [s2 Hs2]; try lia. exists (pre name k), s2. auto.
    + intros (s1 & s2 & Es & Hgk). destruct (pre_prefix name n' s1 s2) as (k & Hk & ->); try lia; auto.
      exists k. split; auto. split; [|lia]. destruct (Z.eq_dec k (-1)); [|lia]. exfalso. subst k.
      rewrite (pre_neg name (-1)) in Hgk by lia. rewrite Ns in Hgk. apply glob_snoc_nil in Hgk; auto.
Qed.
End Match.

Lemma pre_str : forall a, pre a (zlen (str_of a) - 1) = str_of a.
Proof.
  intro a. destruct (str_of_spec a) as (A1 & A2 & _). pose proof (zlen_nonneg _ (str_of a)).
  unfold pre. replace (zlen (str_of a) - 1 + 1) with (zlen (str_of a)) by lia.
  apply ix_ext; rewrite zlen_firstn by lia; auto. intros j Hj. rewrite ix_firstn by lia. symmetry. apply A2. lia.
Qed.

Lemma Match_spec : forall s p, zlen s <= 32767 -> zlen p <= 32767 ->
  exists b, Match s p = Ok b /\ (b = true <-> glob (str_of s) (str_of p)).
Proof.
  intros s p Hs Hp. unfold Match. rewrite !Length_spec by auto. rewrite !bind_ok.
  destruct (str_of_spec s) as (A1 & _). destruct (str_of_spec p) as (B1 & _).
  pose proof (zlen_nonneg _ (str_of s)). pose proof (zlen_nonneg _ (str_of p)).
  destruct (M_spec s p (S (length p)) (zlen (str_of s) - 1) (zlen (str_of p) - 1)) as (b & Hb & Hg);
    try (unfold zlen in *; lia).
  exists b. split; auto. rewrite Hg. unfold G. rewrite !pre_str. reflexivity.
Qed.

(** Pos in terms of strings. *)
Lemma occurs_match : forall p s i, 
  (occurs_at (str_of p) (str_of s) (Z.to_nat i) /\ 0 <= i) <->
  (0 <= i <= zlen (str_of s) - zlen (str_of p) /\ match_at p s i (zlen (str_of p))).
Proof.
  intros p s i. destruct (str_of_spec s) as (A1 & A2 & _). destruct (str_of_spec p) as (B1 & B2 & _).
  pose proof (zlen_nonneg _ (str_of s)). pose proof (zlen_nonneg _ (str_of p)). split.
  - intros [(a & b & E & L) Hi].
    assert (Zs : zlen (str_of s) = i + zlen (str_of p) + zlen b).
    { rewrite E, !zlen_app. unfold zlen at 1. lia. }
    pose proof (zlen_nonneg _ b). split; [lia|].
    intros j Hj. destruct (A2 (i + j) ltac:(lia)) as [<- _]. rewrite E.
    assert (Za : zlen a = i) by (unfold zlen; lia).
    rewrite ix_app, Za by lia. replace (i + j <? i) with false by lia.
    rewrite ix_app by lia. replace (i + j - i <? zlen (str_of p)) with true by lia.
    replace (i + j - i) with j by lia. apply B2. lia.
  - intros [Hi Hm]. split; [|lia].
    exists (firstn (Z.to_nat i) (str_of s)), (skipn (Z.to_nat (i + zlen (str_of p))) (str_of s)).
    split.
    + apply ix_ext.
      * rewrite !zlen_app, zlen_firstn, zlen_skipn by lia. lia.
      * intros j Hj. rewrite ix_app by lia. rewrite zlen_firstn by lia.
        destruct (j <? i) eqn:E1; [rewrite ix_firstn by lia; reflexivity|].
        rewrite ix_app by lia. destruct (j - i <? zlen (str_of p)) eqn:E2.
        -- destruct (A2 j ltac:(lia)) as [-> _]. destruct (B2 (j - i) ltac:(lia)) as [-> _].
           rewrite <- Hm by lia. f_equal. lia.
        -- rewrite ix_skipn by lia. f_equal. lia.
    + rewrite firstn_length. unfold zlen in *. lia.
Qed.

Lemma Pos_spec : forall p s pos, zlen p <= 32767 -> zlen s <= 32767 -> str_of p <> [] -> 0 <= pos ->
  exists r, Pos p s pos = Ok r /\
    ((r = -1 /\ forall k, pos <= k -> ~ occurs_at (str_of p) (str_of s) (Z.to_nat k)) \/
     (pos <= r /\ occurs_at (str_of p) (str_of s) (Z.to_nat r) /\
      forall k, pos <= k < r -> ~ occurs_at (str_of p) (str_of s) (Z.to_nat k))).
Proof.
  intros p s pos Hp Hs Hne Hpos. unfold Pos. rewrite !Length_spec by auto. rewrite !bind_ok.
  destruct (str_of_spec s) as (A1 & _). destruct (str_of_spec p) as (B1 & _).
  pose proof (zlen_nonneg _ (str_of s)).
  assert (1 <= zlen (str_of p)) by (destruct (str_of p); [congruence|rewrite zlen_cons; pose proof (zlen_nonneg _ l); lia]).
  replace (zlen (str_of p) =? 0) with false by lia.
  destruct (pos_outer_spec (S (S (length s))) p s (zlen (str_of s)) (zlen (str_of p)) pos) as (r & Hr & Hc);
    try (unfold zlen in *; lia).
  exists r. split; auto. destruct Hc as [[-> Hc]|(H1 & H2 & H3)].
  - left. split; auto. intros k Hk Ho. destruct (proj1 (occurs_match p s k)) as [X Y]; [split; auto; lia|].
    apply (Hc k); auto. lia.
  - right. split; [lia|]. split.
    + apply occurs_match. split; auto. lia.
    + intros k Hk Ho. destruct (proj1 (occurs_match p s k)) as [X Y]; [split; auto; lia|]. apply (H3 k); auto.
Qed.

(** Cap *)
Lemma cap_land : forall c, 97 <= c <= 122 -> Z.land c 95 = c - 32.
Proof.
  intros c H. 
  assert (F : forallb (fun k => Z.land (Z.of_nat k + 97) 95 =? Z.of_nat k + 65) (seq 0 26) = true) by reflexivity.
  rewrite forallb_forall in F. specialize (F (Z.to_nat (c - 97))).
  assert (In (Z.to_nat (c - 97)) (seq 0 26)) by (apply in_seq; lia). specialize (F H0).
  replace (Z.of_nat (Z.to_nat (c - 97)) + 97) with c in F by lia. lia.
Qed.

Lemma cap_loop_spec : forall fuel s i, terminated s -> 0 <= i <= zlen (str_of s) -> zlen s - i < Z.of_nat fuel ->
  exists s', cap_loop fuel s i = Ok s' /\ zlen s' = zlen s /\
    forall j, 0 <= j < zlen s -> ix s' j = if (i <=? j) && (j <? zlen (str_of s)) then upper (ix s j) else ix s j.
Proof.
  induction fuel as [|fuel IH]; intros s i Ht Hi Hf; destruct (str_of_spec s) as (A1 & A2 & A3);
    pose proof (proj1 (terminated_ix s) Ht) as T; [lia|].
  cbn [cap_loop]. stepget. destruct (ix s i =? 0) eqn:E.
  - exists s. split; auto. split; auto. intros j Hj.
    assert (i = zlen (str_of s)).
    { destruct (Z.eq_dec i (zlen (str_of s))); auto. destruct (A2 i ltac:(lia)). lia. }
    replace ((i <=? j) && (j <? zlen (str_of s))) with false by lia. reflexivity.
  - assert (i < zlen (str_of s)).
    { destruct (Z.eq_dec i (zlen (str_of s))) as [e|]; [|lia]. rewrite e in E. rewrite A3 in E by lia. discriminate. }
    set (s1 := set_nth (Z.to_nat i) (upper (ix s i)) s).
    assert (Up : upper (ix s i) <> 0) by (unfold upper; destruct ((97 <=? ix s i) && (ix s i <=? 122)) eqn:?; lia).
    assert (E1 : (if (97 <=? ix s i) && (ix s i <=? 122) then setA s i (Z.land (ix s i) 95) else Ok s) = Ok s1).
    { destruct ((97 <=? ix s i) && (ix s i <=? 122)) eqn:Er.
      - stepset. unfold s1, upper. rewrite Er. rewrite cap_land by lia. reflexivity.
      - f_equal. unfold s1, upper. rewrite Er. apply ix_ext; [rewrite zlen_set; auto|].
        intros j Hj. rewrite ix_set by lia. destruct (j =? i) eqn:Ej; auto. f_equal. lia. }
    rewrite E1, bind_ok.
    assert (L1 : zlen s1 = zlen s) by apply zlen_set.
    assert (Z1 : zlen (str_of s1) = zlen (str_of s)).
    { erewrite (str_of_unique s1 (firstn (Z.to_nat (zlen (str_of s))) s1)); rewrite ?zlen_firstn; auto; try lia.
      - intros j Hj. rewrite ix_firstn by lia. split; auto. unfold s1. rewrite ix_set by lia.
        destruct (j =? i); auto. apply A2. lia.
      - right. unfold s1. rewrite ix_set by lia. replace (zlen (str_of s) =? i) with false by lia. apply A3. lia. }
    destruct (IH s1 (i + 1)) as (s' & H1 & H2 & H3); try lia.
    { apply terminated_ix. lia. }
    exists s'. split; auto. split; [lia|]. intros j Hj. rewrite H3 by lia. rewrite Z1.
    unfold s1. rewrite ix_set by lia. destruct (j =? i) eqn:Ej.
    + replace ((i + 1 <=? j) && (j <? zlen (str_of s))) with false by lia.
      replace ((i <=? j) && (j <? zlen (str_of s))) with true by lia. f_equal. f_equal. lia.
    + destruct ((i <=? j) && (j <? zlen (str_of s))) eqn:Er.
      * replace ((i + 1 <=? j) && (j <? zlen (str_of s))) with true by lia. reflexivity.
      * replace ((i + 1 <=? j) && (j <? zlen (str_of s))) with false by lia. reflexivity.
Qed.

Lemma ix_map : forall (f : Z -> Z) a j, 0 <= j < zlen a -> ix (map f a) j = f (ix a j).
Proof.
  intros f a j H. unfold ix, zlen in *. rewrite (nth_indep _ 0 (f 0)) by (rewrite map_length; lia).
  apply map_nth.
Qed.

Lemma Cap_spec : forall s, terminated s -> exists s', Cap s = Ok s' /\ zlen s' = zlen s /\
  str_of s' = map upper (str_of s).
Proof.
  intros s Ht. destruct (str_of_spec s) as (A1 & A2 & A3). pose proof (proj1 (terminated_ix s) Ht) as T.
  pose proof (zlen_nonneg _ (str_of s)).
  destruct (cap_loop_spec (S (length s)) s 0 Ht) as (s' & H1 & H2 & H3); try (unfold zlen in *; lia).
  exists s'. split; auto. split; auto.
  assert (Lm : zlen (map upper (str_of s)) = zlen (str_of s)) by (unfold zlen; rewrite map_length; auto).
  apply str_of_unique; rewrite Lm; try lia.
  - intros j Hj. rewrite ix_map by lia. rewrite H3 by lia.
    replace ((0 <=? j) && (j <? zlen (str_of s))) with true by lia. destruct (A2 j Hj) as [-> N]. split; auto.
    unfold upper. destruct ((97 <=? ix s j) && (ix s j <=? 122)) eqn:?; lia.
  - right. rewrite H3 by lia. replace ((0 <=? zlen (str_of s)) && (zlen (str_of s) <? zlen (str_of s))) with false by lia.
    apply A3. lia.
Qed.
