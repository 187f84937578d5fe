(** C97: file names are taken apart and put together. *)
From Verif Require Import Base ArrZ OstrModel OstrSpec OstrProofs OstrProps FnameModel FnameSpec.
From Verif Require CStrModel CStrProps.

Lemma COPY_ok : forall s d, terminated s -> d <> [] -> exists d', COPY s d = Ok d' /\ holds d d' (cut (length d - 1) (str_of s)).
Proof.
  intros s d T D. destruct (CStrProps.C07_copy s d (or_introl T)) as (k & d' & E & L & T' & S' & K & _); [destruct d; [congruence|cbn; lia]|].
  exists d'. split; [exact E|]. split; [exact L|]. split; [exact T'|]. rewrite S'. unfold cut. destruct K as [[-> K]|[-> K]]; [|reflexivity]. rewrite !firstn_all2 by lia. reflexivity.
Qed.
Lemma fits_cut : forall a s, fits a s -> cut (length a - 1) s = s.
Proof. intros a s H. unfold fits in H. unfold cut. apply firstn_all2. lia. Qed.
Lemma fits_ne : forall a s, fits a s -> a <> []. Proof. intros a s H ->. unfold fits in H. cbn in H. lia. Qed.
Lemma term0 : terminated [0]. Proof. left. reflexivity. Qed.
Lemma holds_trans : forall a b c s t, holds a b s -> holds b c t -> holds a c t.
Proof. intros a b c s t (L & _) (L2 & T & S). split; [congruence|]. auto. Qed.
Lemma small_len : forall a b, small a -> length b = length a -> small b. Proof. intros a b H E. unfold small, zlen in *. rewrite E. exact H. Qed.

Lemma split_len : forall ch s l r, split_after ch s l r -> zlen s = zlen l + zlen r. Proof. intros ch s l r (-> & _). apply zlen_app. Qed.
Lemma locate_ok : forall str ch l r, terminated str -> ch <> 0 -> split_after ch (str_of str) l r -> LocateCharLast str ch = Ok (zlen l - 1).
Proof.
  intros str ch l r T NZ S. destruct (str_facts str T) as (A & B & C). pose proof (split_len _ _ _ _ S) as LN. destruct S as (E & NI & K). unfold LocateCharLast. rewrite Length_ok, bind_ok.
  pose proof (zlen_nonneg _ l) as NL. pose proof (zlen_nonneg _ r) as NR.
  assert (R : forall j, zlen l <= j <= zlen (str_of str) -> ix str j <> ch).
  { intros j J. destruct (Z.eq_dec j (zlen (str_of str))) as [->|N]; [congruence|]. destruct (C j ltac:(lia)) as [_ <-]. rewrite E, ix_app by lia. replace (j <? zlen l) with false by lia.
    intros Q. apply NI. rewrite <- Q. unfold ix. apply nth_In. unfold zlen in *. lia. }
  assert (G : forall f pos, zlen l - 1 <= pos <= zlen (str_of str) -> pos + 1 < Z.of_nat f -> locate_loop f str ch pos = Ok (zlen l - 1)).
  { induction f as [|f IH]; intros pos P F; [lia|]. cbn [locate_loop]. destruct (0 <=? pos) eqn:E0; [|f_equal; lia]. rewrite getA_ix, bind_ok by lia.
    destruct (ix str pos =? ch) eqn:E1.
    - f_equal. destruct (Z_lt_le_dec pos (zlen l)) as [Q|Q]; [lia|]. exfalso. apply (R pos); lia.
    - apply IH; [|lia]. destruct (Z.eq_dec pos (zlen l - 1)) as [->|N]; [|lia]. exfalso.
      destruct K as [->|(l' & ->)]; [rewrite zlen_nil in E0; lia|]. rewrite zlen_app in *. change (zlen [ch]) with 1 in *. pose proof (zlen_nonneg _ l').
      destruct (C (zlen l' + 1 - 1) ltac:(lia)) as [_ Q]. rewrite E, ix_app, zlen_app in Q by lia. change (zlen [ch]) with 1 in Q. replace (zlen l' + 1 - 1 <? zlen l' + 1) with true in Q by lia.
      rewrite ix_app in Q by lia. replace (zlen l' + 1 - 1 <? zlen l') with false in Q by lia. replace (zlen l' + 1 - 1 - zlen l') with 0 in Q by lia. change (ix [ch] 0) with ch in Q. lia. }
  apply G; [lia|]. unfold zlen in *. lia.
Qed.
Lemma SplitRChar_ok : forall str str1 str2 ch l r, small str -> small str1 -> small str2 -> terminated str -> ch <> 0 -> split_after ch (str_of str) l r ->
  str1 <> [] -> fits str2 (str_of str) ->
  exists a b, SplitRChar str str1 str2 ch = Ok (a, b) /\ holds str2 b r /\ length a = length str1 /\ terminated a /\ (fits str1 (str_of str) -> str_of a = l).
Proof.
  intros str str1 str2 ch l r Ss S1 S2 T NZ S N1 F2. unfold SplitRChar. rewrite Length_ok, bind_ok, (locate_ok str ch l r T NZ S), bind_ok.
  destruct (COPY_ok str str2 T (fits_ne _ _ F2)) as (b1 & -> & H2). rewrite bind_ok. rewrite fits_cut in H2 by exact F2. pose proof (split_len _ _ _ _ S) as LN. destruct S as (E & NI & K).
  pose proof (zlen_nonneg _ l). pose proof (zlen_nonneg _ r). pose proof (str_of_length str) as SL. unfold small in Ss. destruct (0 <=? zlen l - 1) eqn:P.
  - destruct (COPY_ok str str1 T N1) as (a1 & -> & H1). rewrite bind_ok. replace (zlen l - 1 + 1) with (zlen l) by lia.
    destruct H1 as (L1 & T1 & V1), H2 as (L2 & T2 & V2). assert (zlen l <= 32767) by (unfold zlen in *; lia).
    destruct (C89_delete_partial b1 0 (zlen l) (small_len _ _ S2 L2) T2 ltac:(lia) ltac:(lia) ltac:(lia)) as (b2 & -> & H3). rewrite bind_ok.
    destruct (C89_delete_partial a1 (zlen l) (zlen (str_of str) - zlen l) (small_len _ _ S1 L1) T1 ltac:(lia) ltac:(lia)) as (a2 & -> & H4). { unfold zlen in *. lia. } rewrite bind_ok.
    exists a2, b2. split; [reflexivity|]. destruct H3 as (L3 & T3 & V3), H4 as (L4 & T4 & V4). split; [split; [congruence|split; [exact T3|]]|split; [congruence|split; [exact T4|]]].
    + rewrite V3, V2, E. unfold without. cbn [Z.to_nat firstn app plus]. unfold zlen. rewrite Nat2Z.id, skipn_app, skipn_all, Nat.sub_diag. reflexivity.
    + intros F1. rewrite V4, V1, fits_cut by exact F1. unfold without. rewrite E, zlen_app. replace (zlen l + zlen r - zlen l) with (zlen r) by lia. unfold zlen. rewrite !Nat2Z.id.
      rewrite firstn_app, firstn_all, Nat.sub_diag, firstn_O, app_nil_r, skipn_all2 by (rewrite app_length; lia). apply app_nil_r.
  - assert (l = []) by (destruct l; [reflexivity|rewrite zlen_cons in *; pose proof (zlen_nonneg _ l); lia]). subst l. destruct (COPY_ok [0] str1 term0 N1) as (a1 & -> & H1). rewrite bind_ok.
    exists a1, b1. split; [reflexivity|]. cbn [app] in E. rewrite E in H2. split; [exact H2|]. destruct H1 as (L1 & T1 & V1). split; [exact L1|]. split; [exact T1|]. intros _. rewrite V1. unfold cut. apply firstn_nil.
Qed.
Lemma split_exists : forall ch s, exists l r, split_after ch s l r.
Proof.
  intros ch s. induction s as [|x s (l & r & E & NI & K)] using rev_ind.
  - exists [], []. repeat split; auto.
  - destruct (Z.eq_dec x ch) as [->|N].
    + exists (s ++ [ch]), []. split; [rewrite app_nil_r; reflexivity|]. split; [auto|]. right. eauto.
    + exists l, (r ++ [x]). split; [rewrite E, app_assoc; reflexivity|]. split; [rewrite in_app_iff; cbn; intuition congruence|exact K].
Qed.

(** GetPath splits after the last slash, if both arrays have room for the whole name. *)
Theorem C97_path_partial : forall full path file p n, small full -> small path -> small file -> terminated full -> split_after 47 (str_of full) p n -> fits path (str_of full) -> fits file (str_of full) ->
  exists path' file', GetPath full path file = Ok (path', file') /\ holds path path' p /\ holds file file' n.
Proof.
  intros full path file p n S1 S2 S3 T S F1 F2. destruct (SplitRChar_ok full path file 47 p n S1 S2 S3 T ltac:(lia) S (fits_ne _ _ F1) F2) as (a & b & E & H1 & H2 & H3 & H4).
  exists a, b. split; [exact E|]. split; [|exact H1]. split; [exact H2|]. split; [exact H3|]. apply H4. exact F1.
Qed.
(** GetExt takes off the extension, if the arrays have room for the whole name. *)
Lemma ext_lt : forall s n e l r a b, extended s n e -> split_after 46 s l r -> split_after 47 s a b -> l = n ++ [46] /\ r = e /\ zlen a < zlen l.
Proof.
  intros s n e l r a b (E & N1 & N2) (E1 & M1 & K1) (E2 & M2 & K2).
  assert (Q : forall ch s l r l' r', split_after ch s l r -> split_after ch s l' r' -> l = l' /\ r = r').
  { clear. intros ch s l r l' r' (E & N & K) (E' & N' & K'). assert (L : length l = length l').
    { destruct (Nat.lt_trichotomy (length l) (length l')) as [H|[H|H]]; [|exact H|]; exfalso.
      - destruct K' as [->|(m & ->)]; [cbn in H; lia|]. apply N. subst s. rewrite app_length in H. cbn in H. assert (r = skipn (length l) m ++ [ch] ++ r').
        { rewrite <- (firstn_skipn (length l) m), <- !app_assoc in E'. apply (f_equal (skipn (length l))) in E'. rewrite skipn_app, skipn_all, Nat.sub_diag in E'. cbn [skipn app] in E'.
          rewrite skipn_app, skipn_all2, firstn_length in E' by (rewrite firstn_length; lia). replace (length l - Nat.min (length l) (length m))%nat with O in E' by lia. exact E'. }
        rewrite H0. rewrite !in_app_iff. cbn. auto.
      - destruct K as [->|(m & ->)]; [cbn in H; lia|]. apply N'. subst s. rewrite app_length in H. cbn in H. assert (r' = skipn (length l') m ++ [ch] ++ r).
        { symmetry in E'. rewrite <- (firstn_skipn (length l') m), <- !app_assoc in E'. apply (f_equal (skipn (length l'))) in E'. rewrite skipn_app, skipn_all, Nat.sub_diag in E'. cbn [skipn app] in E'.
          rewrite skipn_app, skipn_all2, firstn_length in E' by (rewrite firstn_length; lia). replace (length l' - Nat.min (length l') (length m))%nat with O in E' by lia. exact E'. }
        rewrite H0. rewrite !in_app_iff. cbn. auto. }
    subst s. split; [|apply (f_equal (skipn (length l))) in E'; rewrite skipn_app, skipn_all, Nat.sub_diag in E'; rewrite L, skipn_app, skipn_all, Nat.sub_diag in E'; exact E'].
    apply (f_equal (firstn (length l))) in E'. rewrite firstn_app, firstn_all, Nat.sub_diag, firstn_O, app_nil_r in E'. rewrite L, firstn_app, firstn_all, Nat.sub_diag, firstn_O, app_nil_r in E'. exact E'. }
  destruct (Q 46 s l r (n ++ [46]) e) as [-> ->]; [repeat split; auto|split; [rewrite <- app_assoc; exact E|split; [exact N1|right; eauto]]|].
  split; [reflexivity|]. split; [reflexivity|].
  destruct K2 as [->|(m & ->)]; [rewrite zlen_nil, zlen_app; change (zlen [46]) with 1; pose proof (zlen_nonneg _ n); lia|].
  destruct (Z_lt_le_dec (zlen (m ++ [47])) (zlen (n ++ [46]))) as [L|L]; [exact L|]. exfalso.
  rewrite !zlen_app in L. change (zlen [47]) with 1 in L. change (zlen [46]) with 1 in L.
  assert (X : ix s (zlen m) = 47). { rewrite E2, <- app_assoc, ix_app by apply zlen_nonneg. replace (zlen m <? zlen m) with false by lia. rewrite Z.sub_diag. reflexivity. }
  rewrite E, ix_app in X by apply zlen_nonneg. replace (zlen m <? zlen n) with false in X by lia.
  destruct (Z.eq_dec (zlen m) (zlen n)) as [Y|Y]; [rewrite Y, Z.sub_diag in X; change (ix (46 :: e) 0) with 46 in X; lia|].
  apply N2. rewrite <- X. change (46 :: e) with ([46] ++ e). rewrite ix_app by lia. change (zlen [46]) with 1. replace (zlen m - zlen n <? 1) with false by lia. unfold ix. apply nth_In.
  assert (LS : zlen s = zlen m + 1 + zlen b) by (rewrite E2, !zlen_app; reflexivity). rewrite E, zlen_app, zlen_cons in LS. pose proof (zlen_nonneg _ b). unfold zlen in *. lia.
Qed.
Theorem C97_ext_partial : forall full file ext, small full -> small file -> small ext -> terminated full -> fits file (str_of full) -> fits ext (str_of full) ->
  (forall n e, extended (str_of full) n e -> exists file' ext', GetExt full file ext = Ok (file', ext') /\ holds file file' n /\ holds ext ext' e) /\
  ((forall n e, ~ extended (str_of full) n e) -> exists file' ext', GetExt full file ext = Ok (file', ext') /\ holds file file' (str_of full) /\ holds ext ext' []).
Proof.
  intros full file ext S1 S2 S3 T F1 F2. destruct (split_exists 47 (str_of full)) as (a & b & SA). destruct (split_exists 46 (str_of full)) as (l & r & SL).
  unfold GetExt. change pathSeperator with 47. rewrite (locate_ok full 47 a b T ltac:(lia) SA), bind_ok. rewrite (locate_ok full 46 l r T ltac:(lia) SL), bind_ok. split.
  - intros n e X. destruct (ext_lt _ _ _ _ _ _ _ X SL SA) as (-> & -> & LT). replace (zlen a - 1 <? zlen (n ++ [46]) - 1) with true by lia.
    destruct (SplitRChar_ok full file ext 46 _ _ S1 S2 S3 T ltac:(lia) SL (fits_ne _ _ F1) F2) as (f1 & e1 & -> & H1 & L1 & T1 & V1). rewrite bind_ok. specialize (V1 F1).
    rewrite Length_ok, bind_ok, V1, zlen_app. change (zlen [46]) with 1. replace (zlen n + 1 - 1) with (zlen n) by lia. pose proof (zlen_nonneg _ n).
    assert (zlen n <= 32767). { pose proof (str_of_length f1). rewrite V1, app_length in H0. cbn in H0. pose proof (small_len _ _ S2 L1). unfold small, zlen in *. lia. }
    destruct (C89_delete_partial f1 (zlen n) 1 (small_len _ _ S2 L1) T1 ltac:(lia) ltac:(lia) ltac:(lia)) as (f2 & -> & L2 & T2 & V2). rewrite bind_ok.
    exists f2, e1. split; [reflexivity|]. split; [|exact H1]. split; [congruence|]. split; [exact T2|]. rewrite V2, V1. unfold without, zlen. rewrite Nat2Z.id.
    rewrite firstn_app, firstn_all, Nat.sub_diag, firstn_O, app_nil_r, skipn_all2 by (rewrite app_length; cbn; lia). apply app_nil_r.
  - intros NX. replace (zlen a - 1 <? zlen l - 1) with false.
    + destruct (COPY_ok full file T (fits_ne _ _ F1)) as (f1 & -> & H1). rewrite bind_ok. destruct (COPY_ok [0] ext term0 (fits_ne _ _ F2)) as (e1 & -> & H2). rewrite bind_ok.
      exists f1, e1. split; [reflexivity|]. rewrite fits_cut in H1 by exact F1. split; [exact H1|]. unfold cut in H2. cbn [str_of Z.eqb] in H2. rewrite firstn_nil in H2. exact H2.
    + symmetry. apply Z.ltb_ge. destruct (Z_lt_le_dec (zlen a) (zlen l)) as [L|L]; [exfalso|lia]. destruct SL as (E & N1 & K). destruct K as [->|(n & ->)]; [rewrite zlen_nil in L; pose proof (zlen_nonneg _ a); lia|].
      apply (NX n r). rewrite <- app_assoc in E. split; [exact E|]. split; [exact N1|]. intros I. apply in_split in I as (u & v & EU). destruct SA as (EA & NA & _). apply NA.
      rewrite EU in E. assert (In 47 (skipn (length a) (str_of full))).
      { rewrite E. rewrite zlen_app in L. change (zlen [46]) with 1 in L. unfold zlen in L. rewrite skipn_app, app_assoc. apply in_or_app. right.
        replace (length a - length n)%nat with O by lia. cbn [skipn]. apply in_or_app. right. left. reflexivity. }
      rewrite EA, skipn_app, skipn_all, Nat.sub_diag in H. exact H.
Qed.
(** GetFile gives the name without path and extension, if its array has room for the whole name. *)
Theorem C97_file_partial : forall dummy full file p n, small full -> small file -> length dummy = 256%nat -> terminated full -> fits file (str_of full) -> (length (str_of full) < 256)%nat -> split_after 47 (str_of full) p n ->
  (forall m e, extended n m e -> exists file', GetFile dummy full file = Ok file' /\ holds file file' m) /\
  ((forall m e, ~ extended n m e) -> exists file', GetFile dummy full file = Ok file' /\ holds file file' n).
Proof.
  intros dummy full file p n S1 S2 LD T F L S. assert (SD : small dummy) by (unfold small, zlen; lia). assert (FD : fits dummy (str_of full)) by (unfold fits; lia).
  destruct (C97_path_partial full dummy file p n S1 SD S2 T S FD F) as (d1 & f1 & E & H1 & H2). unfold GetFile. rewrite E, bind_ok. cbn [fst snd].
  destruct H1 as (L1 & T1 & V1), H2 as (L2 & T2 & V2). pose proof (split_len _ _ _ _ S) as LN. unfold zlen in LN.
  destruct (C97_ext_partial f1 f1 d1 (small_len _ _ S2 L2) (small_len _ _ S2 L2) (small_len _ _ SD L1) T2) as [X Y].
  { unfold fits in *. rewrite L2, V2. lia. } { unfold fits in *. rewrite L1, V2. lia. } rewrite V2 in X, Y. split.
  - intros m e Q. destruct (X m e Q) as (f2 & e2 & -> & H3 & _). exists f2. split; [reflexivity|]. destruct H3 as (L3 & H3). split; [congruence|exact H3].
  - intros Q. destruct (Y Q) as (f2 & e2 & -> & H3 & _). exists f2. split; [reflexivity|]. destruct H3 as (L3 & H3). split; [congruence|exact H3].
Qed.

(** Putting names together: the first characters of the whole name that have room, always terminated. *)
Lemma cut_cut : forall n (a b : list Z), cut n (a ++ cut n b) = cut n (a ++ b).
Proof.
  intros n a b. unfold cut. rewrite !firstn_app. f_equal. rewrite firstn_firstn. f_equal. lia.
Qed.
Lemma cut_app : forall n (a b : list Z), cut n (cut n a ++ b) = cut n (a ++ b).
Proof.
  intros n a b. unfold cut. rewrite !firstn_app, firstn_firstn, firstn_length, Nat.min_id. f_equal. destruct (Nat.le_gt_cases n (length a)); [|f_equal; lia].
  replace (n - Nat.min n (length a))%nat with O by lia. replace (n - length a)%nat with O by lia. reflexivity.
Qed.
Lemma first0 : forall s, terminated s -> exists c, getA s 0 = Ok c /\ (c = 0 <-> str_of s = []).
Proof. intros [|c s] T; [destruct T|]. exists c. split; [reflexivity|]. cbn [str_of]. destruct (c =? 0) eqn:E; split; intros; try congruence; lia. Qed.
Lemma appendchar_ok : forall ch d, ch <> 0 -> terminated d -> exists d', AppendChar ch d = Ok d' /\ holds d d' (cut (length d - 1) (str_of d ++ [ch])).
Proof.
  intros ch d NZ T. destruct (str_facts d T) as (A & B & C). unfold AppendChar. rewrite Length_ok, bind_ok. destruct (zlen (str_of d) <? zlen d - 1) eqn:E.
  - put. put. eexists. split; [reflexivity|]. assert (CT : cut (length d - 1) (str_of d ++ [ch]) = str_of d ++ [ch]) by (unfold cut; apply firstn_all2; rewrite app_length; unfold zlen in *; cbn; lia).
    rewrite CT. apply holds_by.
    + rewrite !zlen_set. reflexivity.
    + rewrite zlen_app. change (zlen [ch]) with 1. lia.
    + rewrite in_app_iff. cbn. intros [Q|[Q|[]]]; [apply str_of_no0 in Q; exact Q|congruence].
    + intros j J. rewrite zlen_app in J. change (zlen [ch]) with 1 in J. rewrite !ix_set by (rewrite ?zlen_set; lia). replace (j =? zlen (str_of d) + 1) with false by lia. rewrite ix_app by lia.
      destruct (j =? zlen (str_of d)) eqn:E1.
      * replace (j <? zlen (str_of d)) with false by lia. replace (j - zlen (str_of d)) with 0 by lia. reflexivity.
      * replace (j <? zlen (str_of d)) with true by lia. symmetry. apply C. lia.
    + rewrite zlen_app. change (zlen [ch]) with 1. rewrite ix_set by (rewrite ?zlen_set; lia). rewrite Z.eqb_refl. reflexivity.
  - exists d. split; [reflexivity|]. split; [reflexivity|]. split; [exact T|]. unfold cut. rewrite firstn_app. replace (length d - 1 - length (str_of d))%nat with O by (unfold zlen in *; lia).
    rewrite firstn_O, app_nil_r. symmetry. apply firstn_all2. unfold zlen in *. lia.
Qed.
Theorem C97_addext : forall full file ext, small full -> small file -> small ext -> full <> [] -> terminated file -> terminated ext ->
  exists full', AddExt full file ext = Ok full' /\ holds full full' (cut (length full - 1) (with_ext (str_of file) (str_of ext))).
Proof.
  intros full file ext S1 S2 S3 D T1 T2. unfold AddExt. destruct (COPY_ok file full T1 D) as (f1 & -> & H1). rewrite bind_ok. destruct (first0 ext T2) as (c & -> & C). rewrite bind_ok.
  destruct (c =? 0) eqn:E; cbn [negb].
  - exists f1. split; [reflexivity|]. rewrite (proj1 C) by lia. exact H1.
  - destruct H1 as (L1 & TT1 & V1). destruct (appendchar_ok 46 f1 ltac:(lia) TT1) as (f2 & -> & L2 & TT2 & V2). rewrite bind_ok.
    destruct (C89_append ext f2) as (f3 & -> & L3 & TT3 & V3); [exact S3|apply (small_len _ _ S1); congruence|exact T2|exact TT2|].
    exists f3. split; [reflexivity|]. split; [congruence|]. split; [exact TT3|]. rewrite V3, V2, V1, L2, L1, cut_app, <- app_assoc, cut_app. f_equal. unfold with_ext.
    destruct (str_of ext) eqn:Q; [exfalso; assert (c = 0) by (apply C; reflexivity); lia|reflexivity].
Qed.
Theorem C97_addpath : forall full path file, small full -> small path -> small file -> full <> [] -> terminated path -> terminated file ->
  exists full', AddPath full path file = Ok full' /\ holds full full' (cut (length full - 1) (with_path (str_of path) (str_of file))).
Proof.
  intros full path file S1 S2 S3 D T1 T2. unfold AddPath. destruct (COPY_ok file full T2 D) as (f1 & -> & H1). rewrite bind_ok. destruct (first0 path T1) as (c & -> & C). rewrite bind_ok.
  destruct (c =? 0) eqn:E; cbn [negb].
  - exists f1. split; [reflexivity|]. rewrite (proj1 C) by lia. exact H1.
  - destruct (str_facts path T1) as (A & B & F). assert (NE : str_of path <> []) by (intros Q; apply C in Q; lia). assert (0 < zlen (str_of path)) by (apply room; exact NE).
    rewrite Length_ok, bind_ok, getA_ix, bind_ok by lia. destruct (F (zlen (str_of path) - 1) ltac:(lia)) as [_ X].
    assert (LST : ix path (zlen (str_of path) - 1) = last (str_of path) 0).
    { rewrite <- X. destruct (exists_last NE) as (u & x & ->). rewrite last_last. rewrite zlen_app. change (zlen [x]) with 1. pose proof (zlen_nonneg _ u). rewrite ix_app by lia.
      replace (zlen u + 1 - 1 <? zlen u) with false by lia. replace (zlen u + 1 - 1 - zlen u) with 0 by lia. reflexivity. }
    rewrite LST. unfold with_path. destruct H1 as (L1 & TT1 & V1). change pathSeperator with 47. destruct (last (str_of path) 0 =? 47) eqn:Q; cbn [negb].
    + rewrite bind_ok. destruct (C89_insert_partial path f1 0 S2 (small_len _ _ S1 L1) T1 TT1 ltac:(lia) ltac:(lia)) as (f2 & -> & L2 & TT2 & V2). exists f2. split; [reflexivity|]. split; [congruence|]. split; [exact TT2|].
      rewrite V2, V1, L1. unfold inserted. cbn [Z.to_nat Nat.leb firstn skipn app]. destruct (str_of path); [congruence|]. apply cut_cut.
    + destruct (C89_insert_partial [47; 0] f1 0) as (f2 & -> & L2 & TT2 & V2); [unfold small, zlen; cbn; lia|apply (small_len _ _ S1 L1)|right; left; reflexivity|exact TT1|lia|lia|]. rewrite bind_ok.
      destruct (C89_insert_partial path f2 0 S2) as (f3 & -> & L3 & TT3 & V3); [apply (small_len _ _ S1); congruence|exact T1|exact TT2|lia|lia|].
      exists f3. split; [reflexivity|]. split; [congruence|]. split; [exact TT3|]. rewrite V3, V2, V1, L2, L1. unfold inserted. cbn [Z.to_nat Nat.leb firstn skipn app]. change (str_of [47; 0]) with [47].
      rewrite !cut_cut. change ([47] ++ cut (length full - 1) (str_of file)) with ([47] ++ cut (length full - 1) (str_of file)).
      rewrite app_assoc, cut_cut, <- app_assoc. destruct (str_of path); [congruence|reflexivity].
Qed.
Theorem C97_build : forall full path file ext, small full -> small path -> small file -> small ext -> full <> [] -> terminated path -> terminated file -> terminated ext ->
  exists full', BuildFilename full path file ext = Ok full' /\ holds full full' (cut (length full - 1) (with_path (str_of path) (with_ext (str_of file) (str_of ext)))).
Proof.
  intros full path file ext S1 S2 S3 S4 D T1 T2 T3. unfold BuildFilename. destruct (C97_addext full file ext S1 S3 S4 D T2 T3) as (f1 & -> & L1 & TT1 & V1). rewrite bind_ok.
  assert (D1 : f1 <> []) by (intros ->; destruct TT1). destruct (C97_addpath f1 path f1 (small_len _ _ S1 L1) S2 (small_len _ _ S1 L1) D1 T1 TT1) as (f2 & -> & L2 & TT2 & V2).
  exists f2. split; [reflexivity|]. split; [congruence|]. split; [exact TT2|]. rewrite V2, V1, L1. unfold with_path. destruct (str_of path) as [|c p]; [unfold cut; rewrite firstn_firstn; f_equal; lia|].
  destruct (last (c :: p) 0 =? 47); [apply cut_cut|]. change (?a ++ 47 :: ?b) with (a ++ [47] ++ b). rewrite !app_assoc. apply cut_cut.
Qed.
(** What was taken apart can be put together again. *)
Theorem C97_path_back_partial : forall full path file full2, small full -> small path -> small file -> small full2 -> terminated full -> fits path (str_of full) -> fits file (str_of full) -> fits full2 (str_of full) ->
  exists path' file' full', GetPath full path file = Ok (path', file') /\ AddPath full2 path' file' = Ok full' /\ holds full2 full' (str_of full).
Proof.
  intros full path file full2 S1 S2 S3 S4 T F1 F2 F3. destruct (split_exists 47 (str_of full)) as (p & n & S). destruct (C97_path_partial full path file p n S1 S2 S3 T S F1 F2) as (a & b & E & (L1 & T1 & V1) & L2 & T2 & V2).
  destruct (C97_addpath full2 a b S4 (small_len _ _ S2 L1) (small_len _ _ S3 L2) (fits_ne _ _ F3) T1 T2) as (f & E2 & H). exists a, b, f. split; [exact E|]. split; [exact E2|].
  assert (W : with_path (str_of a) (str_of b) = str_of full).
  { rewrite V1, V2. destruct S as (-> & _ & K). unfold with_path. destruct K as [->|(q & ->)]; [reflexivity|]. rewrite last_last. cbn [Z.eqb Pos.eqb]. destruct (q ++ [47]) eqn:Q; [destruct q; discriminate|reflexivity]. }
  rewrite W, fits_cut in H by exact F3. exact H.
Qed.
Theorem C97_ext_back_partial : forall full file ext full2, small full -> small file -> small ext -> small full2 -> terminated full -> fits file (str_of full) -> fits ext (str_of full) -> fits full2 (str_of full) ->
  (forall n, str_of full <> n ++ [46]) ->
  exists file' ext' full', GetExt full file ext = Ok (file', ext') /\ AddExt full2 file' ext' = Ok full' /\ holds full2 full' (str_of full).
Proof.
  intros full file ext full2 S1 S2 S3 S4 T F1 F2 F3 ND. destruct (C97_ext_partial full file ext S1 S2 S3 T F1 F2) as [X Y].
  assert (Z : exists f e, GetExt full file ext = Ok (f, e) /\ (length f = length file /\ terminated f) /\ (length e = length ext /\ terminated e) /\ with_ext (str_of f) (str_of e) = str_of full).
  { destruct (split_exists 46 (str_of full)) as (l & r & SL). destruct (in_dec Z.eq_dec 47 r) as [I|I].
    - destruct Y as (f & e & E & (L1 & T1 & V1) & L2 & T2 & V2); [|exists f, e; rewrite V1, V2; auto].
      intros n e Q. destruct (split_exists 47 (str_of full)) as (a & b & SA). destruct (ext_lt _ _ _ _ _ _ _ Q SL SA) as (_ & -> & _). apply Q. exact I.
    - destruct SL as (E & N & K). destruct K as [->|(n & ->)].
      + destruct Y as (f & e & E1 & (L1 & T1 & V1) & L2 & T2 & V2); [|exists f, e; rewrite V1, V2; auto]. intros n e (Q & _). apply N. cbn [app] in E. rewrite <- E, Q. apply in_or_app. right. left. reflexivity.
      + rewrite <- app_assoc in E. destruct (X n r) as (f & e & E1 & (L1 & T1 & V1) & L2 & T2 & V2); [repeat split; auto|]. exists f, e. rewrite V1, V2. split; [exact E1|]. split; [auto|]. split; [auto|].
        rewrite E. unfold with_ext. destruct r; [exfalso; apply (ND n); exact E|reflexivity]. }
  destruct Z as (f & e & E & (L1 & T1) & (L2 & T2) & W). destruct (C97_addext full2 f e S4 (small_len _ _ S2 L1) (small_len _ _ S3 L2) (fits_ne _ _ F3) T1 T2) as (g & E2 & H).
  exists f, e, g. split; [exact E|]. split; [exact E2|]. rewrite W, fits_cut in H by exact F3. exact H.
Qed.

(** The full claims fail. *)
Definition txt (s : list Z) : list Z := s ++ [0].
Definition path9 : list Z := [47; 117; 115; 114; 47; 108; 105; 98; 47].
(** "/usr/lib/a": an array of 8 characters has room for "a" and gets nothing. *)
Theorem C97_path_refuted : exists full path file file', split_after 47 (str_of full) path9 [97] /\ terminated full /\ length file = 8%nat /\ fits file [97] /\
  (let* r := GetPath full path file in Ok (snd r)) = Ok file' /\ str_of file' = [].
Proof.
  exists (txt (path9 ++ [97])), (repeat 0 16), (repeat 0 8). eexists. split; [|split; [|split; [reflexivity|split; [cbv; lia|split; [vm_compute; reflexivity|reflexivity]]]]].
  - split; [reflexivity|]. split; [intros [Q|[]]; discriminate|]. right. exists [47; 117; 115; 114; 47; 108; 105; 98]. reflexivity.
  - unfold txt. apply in_or_app. right. left. reflexivity.
Qed.
(** "a." comes back as "a". *)
Theorem C97_dot_refuted : exists full f e full', str_of full = [97; 46] /\ GetExt full (repeat 0 8) (repeat 0 8) = Ok (f, e) /\ AddExt (repeat 0 8) f e = Ok full' /\ str_of full' = [97].
Proof. exists [97; 46; 0]. do 3 eexists. split; [reflexivity|]. split; [vm_compute; reflexivity|]. split; [vm_compute; reflexivity|reflexivity]. Qed.
(** "~bob/x" becomes a file of the current user although bob is in the file of users. *)
Definition bob : list Z := [98; 111; 98; 58; 120; 58; 49; 58; 49; 58; 66; 58; 47; 104; 47; 98; 58; 47; 115; 0].
Theorem C97_user_refuted : exists full', ExpandPath 0 [bob; [0]] (txt [47; 109; 101]) (repeat 0 32) (txt [126; 98; 111; 98; 47; 120]) = Ok full' /\ str_of full' = [47; 109; 101; 47; 120].
Proof. eexists. split; [vm_compute; reflexivity|reflexivity]. Qed.
(** "~/x" stays as it is. *)
Theorem C97_home_refuted : exists full', ExpandPath 0 [bob; [0]] (txt [47; 109; 101]) (repeat 0 32) (txt [126; 47; 120]) = Ok full' /\ str_of full' = [126; 47; 120].
Proof. eexists. split; [vm_compute; reflexivity|reflexivity]. Qed.
(** Names that do not begin with a tilde are copied. *)
Theorem C97_expand_partial : forall junk lines HOME full path, terminated path -> full <> [] -> (forall s, str_of path <> 126 :: s) ->
  exists full', ExpandPath junk lines HOME full path = Ok full' /\ holds full full' (cut (length full - 1) (str_of path)).
Proof.
  intros junk lines HOME full path T D N. unfold ExpandPath. destruct (COPY_ok path full T D) as (f1 & -> & H). rewrite bind_ok. destruct path as [|c path]; [destruct T|]. cbn [getA length].
  change (getA (c :: path) 0) with (Ok c). rewrite bind_ok. destruct (c =? 126) eqn:E; [|eauto]. exfalso. apply Z.eqb_eq in E. subst c. apply (N (str_of path)). reflexivity.
Qed.
Example C97_met : exists a b c d, GetPath (txt (path9 ++ [97; 46; 77])) (repeat 0 16) (repeat 0 16) = Ok (a, b) /\ str_of a = path9 /\ str_of b = [97; 46; 77] /\
  GetFile (repeat 0 256) (txt (path9 ++ [97; 46; 77])) (repeat 0 16) = Ok c /\ str_of c = [97] /\ extended [97; 46; 77] [97] [77] /\
  BuildFilename (repeat 0 16) (txt [47; 117]) (txt [97]) (txt [77]) = Ok d /\ str_of d = [47; 117; 47; 97; 46; 77].
Proof.
  do 4 eexists. split; [vm_compute; reflexivity|]. split; [reflexivity|]. split; [reflexivity|]. split; [vm_compute; reflexivity|]. split; [reflexivity|].
  split; [split; [reflexivity|]; split; intros [Q|[]]; discriminate|]. split; [vm_compute; reflexivity|reflexivity].
Qed.
Print Assumptions C97_path_partial. Print Assumptions C97_ext_partial. Print Assumptions C97_file_partial. Print Assumptions C97_addext. Print Assumptions C97_addpath. Print Assumptions C97_build.
Print Assumptions C97_path_back_partial. Print Assumptions C97_ext_back_partial. Print Assumptions C97_path_refuted. Print Assumptions C97_dot_refuted. Print Assumptions C97_user_refuted. Print Assumptions C97_home_refuted. Print Assumptions C97_expand_partial.
