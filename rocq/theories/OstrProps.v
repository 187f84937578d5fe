(** C89: the string procedures of the ooc library do what their comments say. *)
From Verif Require Import Base ArrZ OstrModel OstrSpec OstrProofs.

Definition small (a : list Z) : Prop := zlen a <= 32767.

Lemma in_firstn : forall (x : Z) n l, In x (firstn n l) -> In x l.
Proof. intros x n l H. rewrite <- (firstn_skipn n l). apply in_or_app. auto. Qed.
Lemma in_skipn : forall (x : Z) n l, In x (skipn n l) -> In x l.
Proof. intros x n l H. rewrite <- (firstn_skipn n l). apply in_or_app. auto. Qed.
Lemma nz_ix : forall s j, ~ In 0 s -> 0 <= j < zlen s -> ix s j <> 0.
Proof. intros s j N J E. apply N. rewrite <- E. unfold ix. apply nth_In. unfold zlen in J. lia. Qed.
Ltac nz := intro; repeat (rewrite in_app_iff in * || match goal with
  | H : _ \/ _ |- _ => destruct H
  | H : In _ (firstn _ _) |- _ => apply in_firstn in H
  | H : In _ (skipn _ _) |- _ => apply in_skipn in H
  | H : In 0 (str_of _) |- _ => apply str_of_no0 in H; contradiction
  end).
Lemma holds_by : forall d d' s, zlen d' = zlen d -> zlen s < zlen d -> ~ In 0 s ->
  (forall j, 0 <= j < zlen s -> ix d' j = ix s j) -> ix d' (zlen s) = 0 -> holds d d' s.
Proof.
  intros d d' s L Z N E T. pose proof (zlen_nonneg _ s). split; [unfold zlen in L; lia|]. split.
  - apply terminated_at with (j := zlen s); auto. lia.
  - apply str_of_unique; auto; [lia|]. intros j J. split; auto. rewrite E by auto. now apply nz_ix.
Qed.
Lemma zlen_cut : forall n s, zlen (cut n s) = Z.min (Z.of_nat n) (zlen s).
Proof. intros. unfold cut, zlen. rewrite firstn_length. lia. Qed.
Lemma ix_cut : forall n s j, 0 <= j < Z.of_nat n -> ix (cut n s) j = ix s j.
Proof. intros n s j J. unfold cut. replace n with (Z.to_nat (Z.of_nat n)) by lia. now apply ix_firstn. Qed.
Lemma zlen_first : forall n (s : list Z), 0 <= n -> zlen (firstn (Z.to_nat n) s) = Z.min n (zlen s).
Proof. intros. unfold zlen. rewrite firstn_length. lia. Qed.
Lemma zlen_skip : forall n (s : list Z), 0 <= n -> zlen (skipn (Z.to_nat n) s) = Z.max 0 (zlen s - n).
Proof. intros. unfold zlen. rewrite skipn_length. lia. Qed.
Lemma room : forall d : list Z, d <> [] -> 0 < zlen d.
Proof. intros [|x d] H; [contradiction|]. rewrite zlen_cons. pose proof (zlen_nonneg _ d). lia. Qed.
Lemma ne_of : forall d, terminated d -> 0 < zlen d.
Proof. intros d T. apply room. intros ->. destruct T. Qed.

Theorem C89_length : forall s, small s -> Length s = Ok (Z.of_nat (length (str_of s))).
Proof. intros s _. apply Length_ok. Qed.

Theorem C89_assign : forall source d, small source -> small d -> d <> [] -> terminated source \/ (length d <= length source)%nat ->
  exists d', Assign source d = Ok d' /\ holds d d' (cut (length d - 1) (str_of source)).
Proof.
  intros source d _ _ D T. apply room in D. destruct (str_facts' source) as (A & B & C). pose proof (zlen_nonneg _ (str_of source)) as NN.
  assert (TT : zlen (str_of source) < zlen source \/ zlen d <= zlen source).
  { destruct T as [T|T]; [left; now apply str_facts|right; unfold zlen; lia]. }
  set (m := Z.min (zlen d - 1) (zlen (str_of source))).
  destruct (assign_loop_ok (S (length d)) source d (-1) m) as (d' & X & Y & W); try (unfold m, zlen in *; lia).
  exists d'. split; auto.
  assert (Z1 : zlen (cut (length d - 1) (str_of source)) = m) by (rewrite zlen_cut; unfold m, zlen in *; lia).
  apply holds_by; rewrite ?Z1; auto; try (unfold m; lia).
  - unfold cut. nz.
  - intros j J. rewrite W by lia. rewrite ix_cut by (unfold m, zlen in *; lia). destruct (C j); [unfold m in J; lia|].
    cases; auto; lia.
  - rewrite W by (unfold m; lia). cases; auto; lia.
Qed.

Theorem C89_extract : forall source d pos n, small source -> small d -> d <> [] -> terminated source -> 0 <= pos -> 0 <= n ->
  exists d', Extract source pos n d = Ok d' /\ holds d d' (cut (length d - 1) (taken (str_of source) (Z.to_nat pos) (Z.to_nat n))).
Proof.
  intros source d pos n _ _ D T P N. apply room in D. destruct (str_facts source T) as (A & B & C). unfold Extract. rewrite Length_ok, bind_ok.
  set (q := if pos >? zlen (str_of source) then zlen (str_of source) else pos). set (k := if n >=? zlen d then zlen d - 1 else n).
  assert (Q : q = Z.min pos (zlen (str_of source))) by (unfold q; cases; lia).
  assert (K : k = Z.min n (zlen d - 1)) by (unfold k; cases; lia).
  destruct (extract_loop_ok (S (S (length d))) source d q k 0) as (d' & X & Y & W); auto; try (unfold zlen in *; lia).
  exists d'. split; auto. set (m := Z.min (Z.max 0 k) (zlen (str_of source) - q)) in *.
  assert (Z1 : zlen (cut (length d - 1) (taken (str_of source) (Z.to_nat pos) (Z.to_nat n))) = m).
  { rewrite zlen_cut. unfold taken. rewrite zlen_first, zlen_skip by lia. unfold m, zlen in *. lia. }
  apply holds_by; rewrite ?Z1; auto; try (unfold m; lia).
  - unfold cut, taken. nz.
  - intros j J. rewrite W by lia. rewrite ix_cut by (unfold m, zlen in *; lia). unfold taken. rewrite ix_firstn by (unfold m in J; lia).
    rewrite ix_skipn by lia. destruct (C (pos + j)) as [_ ->]; [unfold m in J; lia|]. cases; try (unfold m in *; lia). f_equal. unfold m in J. lia.
  - rewrite W by (unfold m; lia). cases; auto; lia.
Qed.

Lemma chk32 : forall x, 0 <= x < 2 ^ 31 -> chk 32 x = Ok x.
Proof. intros x H. apply chk_ok. unfold in_int. change (2 ^ (32 - 1)) with (2 ^ 31). lia. Qed.

Theorem C89_delete_partial : forall s pos n, small s -> terminated s -> 0 <= pos -> 0 <= n -> pos + n < 2 ^ 31 ->
  exists s', Delete s pos n = Ok s' /\ holds s s' (without (str_of s) (Z.to_nat pos) (Z.to_nat n)).
Proof.
  intros s pos n SM T P N O. destruct (str_facts s T) as (A & B & C). unfold Delete. rewrite Length_ok, bind_ok, chk32, bind_ok by lia.
  assert (Z1 : zlen (without (str_of s) (Z.to_nat pos) (Z.to_nat n)) = Z.min pos (zlen (str_of s)) + Z.max 0 (zlen (str_of s) - (pos + n))).
  { unfold without. rewrite zlen_app, zlen_first by lia. rewrite <- Z2Nat.inj_add, zlen_skip by lia. lia. }
  assert (NZ : ~ In 0 (without (str_of s) (Z.to_nat pos) (Z.to_nat n))) by (unfold without; nz).
  assert (EX : forall j, 0 <= j < zlen (without (str_of s) (Z.to_nat pos) (Z.to_nat n)) ->
    ix (without (str_of s) (Z.to_nat pos) (Z.to_nat n)) j = if j <? pos then ix s j else ix s (j + n)).
  { intros j J. rewrite Z1 in J. unfold without. rewrite <- Z2Nat.inj_add by lia. rewrite ix_app, zlen_first by lia. cases; try lia.
    - rewrite ix_firstn by lia. now apply C; lia.
    - rewrite ix_skipn by lia. replace (pos + n + (j - Z.min pos (zlen (str_of s)))) with (j + n) by lia. apply C. lia. }
  destruct (pos + n <? zlen (str_of s)) eqn:E1; [|destruct (pos <? zlen (str_of s)) eqn:E2].
  - destruct (delete_loop_ok (S (S (length s))) s n (zlen (str_of s) - n) pos) as (s' & X & Y & W); try (unfold zlen in *; lia).
    exists s'. split; auto. apply holds_by; auto; try lia.
    + intros j J. rewrite EX by auto. rewrite W by lia. rewrite Z1 in J. cases; auto; lia.
    + rewrite W by lia. rewrite Z1. cases; try lia. replace (_ + n) with (zlen (str_of s)) by lia. auto.
  - rewrite setA_ix by lia. eexists. split; [reflexivity|]. apply holds_by; rewrite ?zlen_set; auto; try lia.
    + intros j J. rewrite EX by auto. rewrite ix_set by lia. rewrite Z1 in J. cases; auto; lia.
    + rewrite ix_set by lia. rewrite Z1. cases; auto; lia.
  - exists s. split; auto. apply holds_by; auto; try lia.
    + intros j J. rewrite EX by auto. rewrite Z1 in J. cases; auto; lia.
    + rewrite Z1. replace (_ + _) with (zlen (str_of s)) by lia. auto.
Qed.

(** INTEGER with 4 bytes: "delete everything from position 5 on". *)
Theorem C89_delete_refuted : exists s pos n, small s /\ terminated s /\ 0 <= pos /\ 0 <= n /\ in_int 32 n /\ Delete s pos n = UB.
Proof.
  exists [65; 0], 5, (2 ^ 31 - 1). split; [unfold small; vm_compute; congruence|]. split; [right; left; reflexivity|]. split; [lia|]. split; [lia|].
  split; [unfold in_int; lia|]. vm_compute. reflexivity.
Qed.

Theorem C89_insert_partial : forall source d pos, small source -> small d -> terminated source -> terminated d -> 0 <= pos -> pos + 32767 < 2 ^ 31 ->
  exists d', Insert source pos d = Ok d' /\ holds d d' (cut (length d - 1) (inserted (str_of source) (Z.to_nat pos) (str_of d))).
Proof.
  intros source d pos Ss Sd Ts Td P O. unfold small in *. destruct (str_facts source Ts) as (A & B & C). destruct (str_facts d Td) as (A' & B' & C').
  unfold Insert. rewrite !Length_ok, !bind_ok, chk32, bind_ok by lia.
  set (R := cut (length d - 1) (inserted (str_of source) (Z.to_nat pos) (str_of d))). set (n := zlen (str_of source)) in *. set (dl := zlen (str_of d)) in *.
  assert (NZ : ~ In 0 R) by (unfold R, cut, inserted; destruct (_ <=? _)%nat; nz).
  assert (Z1 : zlen R = if pos <=? dl then Z.min (zlen d - 1) (dl + n) else dl).
  { unfold R. rewrite zlen_cut. unfold inserted. replace (Z.to_nat pos <=? length (str_of d))%nat with (pos <=? dl)
      by (unfold dl, zlen; destruct (Nat.leb_spec (Z.to_nat pos) (length (str_of d))); lia).
    cases; rewrite ?zlen_app, ?zlen_first, ?zlen_skip by lia; fold n dl; unfold zlen in *; lia. }
  assert (EX : forall j, 0 <= j < zlen R -> ix R j = if pos <=? dl then if j <? pos then ix d j else if j <? pos + n then ix source (j - pos) else ix d (j - n) else ix d j).
  { intros j J. unfold R. rewrite Z1 in J. rewrite ix_cut by (destruct (pos <=? dl); unfold zlen in *; lia).
    unfold inserted. replace (Z.to_nat pos <=? length (str_of d))%nat with (pos <=? dl)
      by (unfold dl, zlen; destruct (Nat.leb_spec (Z.to_nat pos) (length (str_of d))); lia).
    destruct (pos <=? dl) eqn:E; [|apply C'; lia]. rewrite ix_app, zlen_first by lia. fold dl. replace (Z.min pos dl) with pos by lia.
    destruct (j <? pos) eqn:E1; [rewrite ix_firstn by lia; apply C'; lia|]. rewrite ix_app by lia. fold n.
    replace (j - pos <? n) with (j <? pos + n) by lia. destruct (j <? pos + n) eqn:E2; [apply C; lia|].
    rewrite ix_skipn by lia. replace (pos + (j - pos - n)) with (j - n) by lia. apply C'. lia. }
  assert (G : forall d1 m, zlen d1 = zlen d -> 0 <= m <= n -> pos + m < zlen d \/ m = 0 ->
    (forall j, 0 <= j < zlen R -> (if (pos <=? j) && (j <? pos + m) then ix source (j - pos) else ix d1 j) = ix R j) ->
    (if (pos <=? zlen R) && (zlen R <? pos + m) then 1 else ix d1 (zlen R)) = 0 -> zlen R < zlen d ->
    exists d', copy_loop (S (length d1)) source d1 pos (m - 1) 0 = Ok d' /\ holds d d' R).
  { intros d1 m L M PM E T ZR. pose proof (zlen_nonneg _ R).
    destruct (Z.eq_dec m 0) as [->|M0].
    - cbn [copy_loop]. replace (0 <=? 0 - 1) with false by lia. exists d1. split; auto. apply holds_by; auto.
      + intros j J. specialize (E j J). destruct (_ && _) eqn:X in E; [lia|auto].
      + destruct (_ && _) eqn:X in T; [lia|auto].
    - destruct (copy_loop_ok (S (length d1)) source d1 pos (m - 1) 0) as (d' & X & Y & W); try (unfold zlen in *; lia).
      exists d'. split; auto. apply holds_by; auto; try lia.
      + intros j J. rewrite <- E by auto. rewrite W by lia. cases; auto; lia.
      + rewrite W by lia. destruct (_ && _) eqn:X1 in T; [lia|]. cases; auto; lia. }
  destruct (pos + n <? zlen d - 1) eqn:E1.
  - destruct (dl + n >? zlen d - 1) eqn:E2; rewrite ?setA_ix by lia; rewrite !bind_ok; cbn [fst snd].
    + set (d1 := set_nth (Z.to_nat (zlen d - 1 - n)) 0 d).
      destruct (move_loop_ok (S (S (length d1))) d1 n pos (zlen d - 1 - n)) as (d2 & X & Y & W); unfold d1 in *; rewrite ?zlen_set in *; rewrite ?set_nth_length in *; try (unfold zlen in *; lia).
      rewrite X, !bind_ok. cbn [fst snd]. destruct (Z.eq_dec 0 0) as [_|]; [|lia].
      assert (ZR : zlen R = zlen d - 1) by (rewrite Z1; cases; lia).
      apply G; auto; try lia.
      * intros j J. rewrite EX by auto. rewrite ZR in J. rewrite W by lia. cases; rewrite ?ix_set by lia; cases; auto; lia.
      * rewrite ZR. rewrite W by lia. cases; rewrite ?ix_set by lia; cases; auto; lia.
    + destruct (move_loop_ok (S (S (length d))) d n pos dl) as (d2 & X & Y & W); try (unfold zlen in *; lia).
      rewrite X, !bind_ok. cbn [fst snd].
      apply G; auto; try lia.
      * intros j J. rewrite EX by auto. rewrite Z1 in J. rewrite W by lia. destruct (pos <=? dl) eqn:E; cases; auto; lia.
      * rewrite W by (rewrite Z1; cases; lia). rewrite Z1. destruct (pos <=? dl) eqn:E.
        -- replace (Z.min (zlen d - 1) (dl + n)) with (dl + n) by lia. cases; try lia. replace (dl + n - n) with dl by lia. auto.
        -- cases; try lia.
      * rewrite Z1. cases; lia.
  - destruct (pos <=? dl) eqn:E2; rewrite ?setA_ix by lia; rewrite !bind_ok; cbn [fst snd].
    + assert (ZR : zlen R = zlen d - 1) by (rewrite Z1; lia).
      apply G; rewrite ?zlen_set; auto; try lia.
      * intros j J. rewrite EX by auto. rewrite ZR in J. rewrite !ix_set by lia. cases; auto; lia.
      * rewrite ZR. rewrite !ix_set by lia. cases; auto; lia.
    + apply G; auto; try lia.
      * intros j J. rewrite EX by auto. rewrite Z1 in J. cases; auto; lia.
      * rewrite Z1. cases; try lia.
Qed.

Theorem C89_replace : forall source d pos, small source -> small d -> terminated source -> terminated d -> 0 <= pos ->
  exists d', Replace source pos d = Ok d' /\ holds d d' (replaced (str_of source) (Z.to_nat pos) (str_of d)).
Proof.
  intros source d pos _ _ Ts Td P. destruct (str_facts source Ts) as (A & B & C). destruct (str_facts d Td) as (A' & B' & C').
  unfold Replace. rewrite Length_ok, bind_ok. set (R := replaced (str_of source) (Z.to_nat pos) (str_of d)).
  set (n := zlen (str_of source)) in *. set (dl := zlen (str_of d)) in *.
  assert (NZ : ~ In 0 R) by (unfold R, replaced; destruct (_ <=? _)%nat; nz).
  assert (PE : (Z.to_nat pos <=? length (str_of d))%nat = (pos <=? dl)) by (unfold dl, zlen; destruct (Nat.leb_spec (Z.to_nat pos) (length (str_of d))); lia).
  assert (RE : R = if pos <=? dl then firstn (Z.to_nat pos) (str_of d) ++ firstn (Z.to_nat (dl - pos)) (str_of source) ++ skipn (Z.to_nat (pos + n)) (str_of d) else str_of d).
  { unfold R, replaced. rewrite PE. destruct (pos <=? dl) eqn:E; auto. repeat f_equal; unfold dl, n, zlen; lia. }
  assert (Z1 : zlen R = dl).
  { rewrite RE. destruct (pos <=? dl) eqn:E; auto. rewrite !zlen_app, !zlen_first, zlen_skip by lia. fold n dl. lia. }
  assert (EX : forall j, 0 <= j < dl -> ix R j = if (pos <=? j) && (j - pos <? n) then ix source (j - pos) else ix d j).
  { intros j J. rewrite RE. destruct (pos <=? dl) eqn:E; [|cases; try lia; apply C'; lia].
    rewrite ix_app, zlen_first by lia. fold dl. replace (Z.min pos dl) with pos by lia. destruct (j <? pos) eqn:E1.
    - rewrite ix_firstn by lia. cases; try lia; apply C'; lia.
    - rewrite ix_app, zlen_first by lia. fold n. destruct (j - pos <? Z.min (dl - pos) n) eqn:E2.
      + rewrite ix_firstn by lia. cases; try lia. apply C. lia.
      + rewrite ix_skipn by lia. replace (pos + n + (j - pos - Z.min (dl - pos) n)) with j by lia. cases; try lia. apply C'; lia. }
  destruct (pos <? dl) eqn:E.
  - destruct (replace_loop_ok (S (length d)) source d pos dl 0) as (d' & X & Y & W); auto; try (unfold zlen in *; lia).
    exists d'. split; auto. apply holds_by; rewrite ?Z1; auto; try lia.
    + intros j J. rewrite EX by lia. rewrite W by lia. fold n. replace (j - pos + 0) with (j - pos) by lia. cases; auto; lia.
    + rewrite W by lia. cases; auto; lia.
  - exists d. split; auto. apply holds_by; rewrite ?Z1; auto; try lia. intros j J. rewrite EX by lia. cases; auto; lia.
Qed.

Theorem C89_append : forall source d, small source -> small d -> terminated source -> terminated d ->
  exists d', Append source d = Ok d' /\ holds d d' (cut (length d - 1) (str_of d ++ str_of source)).
Proof.
  intros source d _ _ Ts Td. destruct (str_facts source Ts) as (A & B & C). destruct (str_facts d Td) as (A' & B' & C').
  unfold Append. rewrite Length_ok, bind_ok.
  destruct (append_loop_ok (S (length d)) source d (zlen (str_of d)) 0) as (d' & X & Y & W); auto; try (unfold zlen in *; lia).
  exists d'. split; auto. set (R := cut (length d - 1) (str_of d ++ str_of source)).
  assert (NZ : ~ In 0 R) by (unfold R, cut; nz).
  assert (Z1 : zlen R = Z.min (zlen d - 1) (zlen (str_of d) + zlen (str_of source))).
  { unfold R. rewrite zlen_cut, zlen_app. unfold zlen in *. lia. }
  apply holds_by; rewrite ?Z1; auto; try lia.
  - intros j J. rewrite W by lia. unfold R. rewrite ix_cut by (unfold zlen in *; lia). rewrite ix_app by lia.
    destruct (j <? zlen (str_of d)) eqn:E.
    + destruct (C' j) as [_ ->]; [lia|]. cases; auto; lia.
    + destruct (C (j - zlen (str_of d))) as [_ ->]; [lia|]. cases; try lia. f_equal; lia.
  - rewrite W by lia. cases; auto; lia.
Qed.

Theorem C89_concat : forall source1 source2 d, small source1 -> small source2 -> small d -> terminated source1 -> terminated source2 -> d <> [] ->
  exists d', Concat source1 source2 d = Ok d' /\ holds d d' (cut (length d - 1) (str_of source1 ++ str_of source2)).
Proof.
  intros s1 s2 d _ _ _ T1 T2 D. apply room in D. destruct (str_facts s1 T1) as (A & B & C). destruct (str_facts s2 T2) as (A' & B' & C').
  unfold Concat.
  destruct (concat_loop_ok (S (length s1)) s1 d 0 0) as (d1 & X1 & Y1 & W1); auto; try (unfold zlen in *; lia).
  rewrite X1, bind_ok. set (m1 := Z.min (zlen d - 1) (0 + zlen (str_of s1) - 0)) in *.
  destruct (concat_loop_ok (S (length s2)) s2 d1 0 m1) as (d2 & X2 & Y2 & W2); auto; try (unfold m1, zlen in *; lia).
  cbn [fst snd]. rewrite X2, bind_ok. cbn [fst snd]. set (m2 := Z.min (zlen d1 - 1) (m1 + zlen (str_of s2) - 0)) in *.
  rewrite setA_ix by (unfold m1, m2 in *; lia). eexists. split; [reflexivity|].
  set (R := cut (length d - 1) (str_of s1 ++ str_of s2)).
  assert (NZ : ~ In 0 R) by (unfold R, cut; nz).
  assert (Z1 : zlen R = m2) by (unfold R; rewrite zlen_cut, zlen_app; unfold m1, m2, zlen in *; lia).
  apply holds_by; rewrite ?zlen_set, ?Z1; auto; try (unfold m1, m2 in *; lia).
  - intros j J. rewrite ix_set by (unfold m1, m2 in *; lia). rewrite W2 by lia. unfold R.
    rewrite ix_cut by (unfold m1, m2, zlen in *; lia). rewrite ix_app by lia. rewrite W1 by lia.
    destruct (j <? zlen (str_of s1)) eqn:E.
    + destruct (C j) as [_ ->]; [lia|]. cases; try (unfold m1, m2 in *; lia). f_equal. lia.
    + destruct (C' (j - zlen (str_of s1))) as [_ ->]; [unfold m1, m2 in *; lia|]. cases; try (unfold m1, m2 in *; lia). f_equal. unfold m1, m2 in *. lia.
  - rewrite ix_set by (unfold m1, m2 in *; lia). rewrite Z.eqb_refl. auto.
Qed.

(** The predicates tell whether the operation is complete: nothing is cut off, and all the characters are there. *)
Lemma has_iff : forall len pos n, has len pos n <-> (pos + n <= len)%nat.
Proof.
  intros len pos n. split.
  - intros H. destruct (H (repeat 1 len)) as (u & x & v & E & U & X); [apply repeat_length|].
    apply (f_equal (@length Z)) in E. rewrite repeat_length, !app_length in E. lia.
  - intros H s L. exists (firstn pos s), (firstn n (skipn pos s)), (skipn n (skipn pos s)). rewrite firstn_skipn, firstn_skipn. conjs.
    + rewrite firstn_length. lia.
    + rewrite firstn_length, skipn_length. lia.
Qed.
Theorem C89_can_partial : forall d sl pos n, small d -> terminated d -> 0 <= sl -> 0 <= pos -> 0 <= n -> sl + pos < 2 ^ 31 -> pos + n < 2 ^ 31 -> sl + n < 2 ^ 31 -> sl + 32767 < 2 ^ 31 ->
  (exists b, CanAssignAll sl d = Ok b /\ (b = true <-> forall x, zlen x = sl -> cut (length d - 1) x = x)) /\
  (exists b, CanExtractAll sl pos n d = Ok b /\ (b = true <-> has (Z.to_nat sl) (Z.to_nat pos) (Z.to_nat n) /\ (Z.to_nat n < length d)%nat)) /\
  (exists b, CanDeleteAll sl pos n = Ok b /\ (b = true <-> has (Z.to_nat sl) (Z.to_nat pos) (Z.to_nat n))) /\
  (exists b, CanInsertAll sl pos d = Ok b /\ (b = true <-> (Z.to_nat pos <= length (str_of d))%nat /\
     forall x, zlen x = sl -> cut (length d - 1) (inserted x (Z.to_nat pos) (str_of d)) = inserted x (Z.to_nat pos) (str_of d))) /\
  (exists b, CanReplaceAll sl pos d = Ok b /\ (b = true <-> has (length (str_of d)) (Z.to_nat pos) (Z.to_nat sl))) /\
  (exists b, CanAppendAll sl d = Ok b /\ (b = true <-> forall x, zlen x = sl -> cut (length d - 1) (str_of d ++ x) = str_of d ++ x)) /\
  (exists b, CanConcatAll sl n d = Ok b /\ (b = true <-> forall x y, zlen x = sl -> zlen y = n -> cut (length d - 1) (x ++ y) = x ++ y)).
Proof.
  intros d sl pos n Sd Td L P N O1 O2 O3 O4. destruct (str_facts d Td) as (A & B & C). unfold small in Sd.
  assert (CUT : forall x, cut (length d - 1) x = x <-> zlen x < zlen d).
  { intros x. split; intros H.
    - apply (f_equal (@length Z)) in H. unfold cut in H. rewrite firstn_length in H. unfold zlen in *. lia.
    - apply firstn_all2. unfold zlen in *. lia. }
  assert (EXX : forall k, 0 <= k -> zlen (repeat 1 (Z.to_nat k)) = k) by (intros k K; unfold zlen; rewrite repeat_length; lia).
  split; [|split; [|split; [|split; [|split; [|split]]]]].
  - eexists. split; [reflexivity|]. split.
    + intros H x X. apply CUT. lia.
    + intros H. specialize (H _ (EXX sl L)). apply CUT in H. rewrite EXX in H by lia. lia.
  - unfold CanExtractAll. rewrite chk32, bind_ok by lia. eexists. split; [reflexivity|]. rewrite has_iff. unfold zlen. lia.
  - unfold CanDeleteAll. rewrite chk32, bind_ok by lia. eexists. split; [reflexivity|]. rewrite has_iff. unfold zlen. lia.
  - unfold CanInsertAll. rewrite Length_ok, bind_ok. destruct (pos <=? zlen (str_of d)) eqn:E.
    + rewrite chk32, bind_ok by lia. eexists. split; [reflexivity|].
      assert (ZI : forall x, zlen (inserted x (Z.to_nat pos) (str_of d)) = zlen x + zlen (str_of d)).
      { intros x. unfold inserted. replace (Z.to_nat pos <=? length (str_of d))%nat with true by (symmetry; apply Nat.leb_le; unfold zlen in *; lia).
        rewrite !zlen_app, zlen_first, zlen_skip by lia. lia. }
      split.
      * intros H. split; [unfold zlen in *; lia|]. intros x X. apply CUT. rewrite ZI. lia.
      * intros [_ H]. specialize (H _ (EXX sl L)). apply CUT in H. rewrite ZI, EXX in H by lia. lia.
    + eexists. split; [reflexivity|]. split; [discriminate|]. intros [H _]. unfold zlen in *. lia.
  - unfold CanReplaceAll. rewrite chk32, bind_ok, Length_ok, bind_ok by lia. eexists. split; [reflexivity|]. rewrite has_iff. unfold zlen. lia.
  - unfold CanAppendAll. rewrite Length_ok, bind_ok, chk32, bind_ok by lia. eexists. split; [reflexivity|]. split.
    + intros H x X. apply CUT. rewrite zlen_app. lia.
    + intros H. specialize (H _ (EXX sl L)). apply CUT in H. rewrite zlen_app, EXX in H by lia. lia.
  - unfold CanConcatAll. rewrite chk32, bind_ok by lia. eexists. split; [reflexivity|]. split.
    + intros H x y X Y. apply CUT. rewrite zlen_app. lia.
    + intros H. specialize (H _ _ (EXX sl L) (EXX n N)). apply CUT in H. rewrite zlen_app, !EXX in H by lia. lia.
Qed.

Lemma skip_at : forall (s : list Z) k, 0 <= k < zlen s -> skipn (Z.to_nat k) s = ix s k :: skipn (Z.to_nat (k + 1)) s.
Proof.
  intros s k K. replace (Z.to_nat (k + 1)) with (S (Z.to_nat k)) by lia. unfold ix, zlen in *. assert (H : (Z.to_nat k < length s)%nat) by lia. clear K.
  revert s H. induction (Z.to_nat k) as [|n IH]; intros [|x s] H; cbn [length] in H; try lia; auto. cbn [skipn nth]. rewrite IH by lia. auto.
Qed.
Lemma skip_end : forall (s : list Z), skipn (Z.to_nat (zlen s)) s = [].
Proof. intros s. apply skipn_all2. unfold zlen. lia. Qed.
Lemma before_app : forall p a b, before a b -> before (p ++ a) (p ++ b).
Proof. induction p as [|c p IH]; intros a b H; auto. cbn [app]. apply b_eq. auto. Qed.
Lemma before_irr : forall a, ~ before a a.
Proof. induction a as [|c a IH]; intros H; inversion H; subst; auto; lia. Qed.
Lemma before_asym : forall a b, before a b -> ~ before b a.
Proof. intros a b H. induction H as [c b|c e a b L|c a b H IH]; intros H1; inversion H1; subst; auto; lia. Qed.
(** Where the loop of the comparisons stops. *)
Lemma common : forall a b, terminated a -> terminated b -> exists k p, common_loop (S (length a)) a b 0 = Ok k /\ 0 <= k < zlen a /\ k < zlen b /\ zlen p = k /\
  ((ix a k = 0 /\ ix b k = 0 /\ str_of a = p /\ str_of b = p) \/
   (exists c r, ix a k = 0 /\ ix b k = c /\ c <> 0 /\ str_of a = p /\ str_of b = p ++ c :: r) \/
   (exists c r, ix b k = 0 /\ ix a k = c /\ c <> 0 /\ str_of b = p /\ str_of a = p ++ c :: r) \/
   (exists c r e q, ix a k = c /\ ix b k = e /\ c <> e /\ c <> 0 /\ e <> 0 /\ str_of a = p ++ c :: r /\ str_of b = p ++ e :: q)).
Proof.
  intros a b Ta Tb. destruct (str_facts a Ta) as (A & B & C). destruct (str_facts b Tb) as (A' & B' & C').
  destruct (common_loop_ok (S (length a)) a b 0) as (k & X & K1 & K2 & K3 & K4); auto; try (unfold zlen in *; lia).
  assert (PE : firstn (Z.to_nat k) (str_of a) = firstn (Z.to_nat k) (str_of b)).
  { apply ix_ext; rewrite !zlen_first by lia; [lia|]. intros j J. rewrite !ix_firstn by lia. destruct (C j) as [_ ->]; [lia|]. destruct (C' j) as [_ ->]; [lia|]. apply K3. lia. }
  exists k, (firstn (Z.to_nat k) (str_of a)). split; [auto|]. split; [lia|]. split; [lia|]. split; [rewrite zlen_first; lia|].
  assert (DA : (k = zlen (str_of a) /\ ix a k = 0 /\ str_of a = firstn (Z.to_nat k) (str_of a)) \/
    (k < zlen (str_of a) /\ ix a k <> 0 /\ str_of a = firstn (Z.to_nat k) (str_of a) ++ ix a k :: skipn (Z.to_nat (k + 1)) (str_of a))).
  { destruct (Z.eq_dec k (zlen (str_of a))) as [->|]; [left; conjs|right; destruct (C k) as [C1 C2]; [lia|]; split; [lia|]; split; [auto|]].
    - rewrite <- (firstn_skipn (Z.to_nat (zlen (str_of a))) (str_of a)) at 1. rewrite skip_end, app_nil_r. auto.
    - rewrite <- (firstn_skipn (Z.to_nat k) (str_of a)) at 1. f_equal. rewrite <- C2. apply skip_at. lia. }
  assert (DB : (k = zlen (str_of b) /\ ix b k = 0 /\ str_of b = firstn (Z.to_nat k) (str_of a)) \/
    (k < zlen (str_of b) /\ ix b k <> 0 /\ str_of b = firstn (Z.to_nat k) (str_of a) ++ ix b k :: skipn (Z.to_nat (k + 1)) (str_of b))).
  { rewrite PE. destruct (Z.eq_dec k (zlen (str_of b))) as [->|]; [left; conjs|right; destruct (C' k) as [C1 C2]; [lia|]; split; [lia|]; split; [auto|]].
    - rewrite <- (firstn_skipn (Z.to_nat (zlen (str_of b))) (str_of b)) at 1. rewrite skip_end, app_nil_r. auto.
    - rewrite <- (firstn_skipn (Z.to_nat k) (str_of b)) at 1. f_equal. rewrite <- C2. apply skip_at. lia. }
  destruct DA as [(D1 & D2 & D3)|(D1 & D2 & D3)], DB as [(F1 & F2 & F3)|(F1 & F2 & F3)].
  - left. auto.
  - right. left. exists (ix b k), (skipn (Z.to_nat (k + 1)) (str_of b)). auto.
  - right. right. left. exists (ix a k), (skipn (Z.to_nat (k + 1)) (str_of a)). auto.
  - right. right. right. exists (ix a k), (skipn (Z.to_nat (k + 1)) (str_of a)), (ix b k), (skipn (Z.to_nat (k + 1)) (str_of b)). destruct K4; [lia|]. auto 9.
Qed.

Theorem C89_compare : forall a b, small a -> small b -> bytes a -> bytes b -> terminated a -> terminated b ->
  exists r, Compare a b = Ok r /\ (r = -1 <-> before (str_of a) (str_of b)) /\ (r = 0 <-> str_of a = str_of b) /\ (r = 1 <-> before (str_of b) (str_of a)).
Proof.
  intros a b _ _ Ba Bb Ta Tb. destruct (common a b Ta Tb) as (k & p & X & K1 & K2 & P & H). unfold Compare. rewrite X, bind_ok, !getA_ix, !bind_ok by lia.
  assert (N : forall s, bytes s -> 0 <= k < zlen s -> 0 <= ix s k).
  { intros s F L. assert (is_byte (ix s k)) as [? _]; [|lia]. unfold bytes in F. rewrite Forall_forall in F. apply F. unfold ix. apply nth_In. unfold zlen in L. lia. }
  pose proof (N a Ba ltac:(lia)) as Na. pose proof (N b Bb ltac:(lia)) as Nb. eexists. split; [reflexivity|].
  assert (G : forall r, (r = -1 /\ before (str_of a) (str_of b)) \/ (r = 0 /\ str_of a = str_of b) \/ (r = 1 /\ before (str_of b) (str_of a)) ->
    (r = -1 <-> before (str_of a) (str_of b)) /\ (r = 0 <-> str_of a = str_of b) /\ (r = 1 <-> before (str_of b) (str_of a))).
  { intros r [[-> B]|[[-> B]|[-> B]]].
    - split; [tauto|]. split; (split; [lia|]); intros Q; exfalso; [rewrite Q in B; now apply before_irr in B|now apply before_asym in B].
    - rewrite B. split; [split; [lia|intros Q; now apply before_irr in Q]|]. split; [tauto|]. split; [lia|intros Q; now apply before_irr in Q].
    - split; [split; [lia|intros Q; now apply before_asym in B]|]. split; [|tauto]. split; [lia|]. intros Q. rewrite Q in B. now apply before_irr in B. }
  apply G. destruct H as [(H1 & H2 & H3 & H4)|[(c & r & H1 & H2 & H3 & H4 & H5)|[(c & r & H1 & H2 & H3 & H4 & H5)|(c & r & e & q & H1 & H2 & H3 & H4 & H5 & H6 & H7)]]].
  - right. left. rewrite H1, H2. split; [reflexivity|congruence].
  - left. split; [cases; lia|]. rewrite H4, H5. rewrite <- (app_nil_r p) at 1. apply before_app. constructor.
  - right. right. split; [cases; lia|]. rewrite H4, H5. rewrite <- (app_nil_r p) at 1. apply before_app. constructor.
  - destruct (Z.lt_ge_cases c e).
    + left. split; [cases; lia|]. rewrite H6, H7. apply before_app. now constructor.
    + right. right. split; [cases; lia|]. rewrite H6, H7. apply before_app. constructor. lia.
Qed.

Theorem C89_equal : forall a b, small a -> small b -> terminated a -> terminated b -> exists r, Equal a b = Ok r /\ (r = true <-> str_of a = str_of b).
Proof.
  intros a b _ _ Ta Tb. destruct (common a b Ta Tb) as (k & p & X & K1 & K2 & P & H). unfold Equal. rewrite X, bind_ok, !getA_ix, !bind_ok by lia.
  assert (IN : forall (c : Z) r, p = p ++ c :: r -> False). { intros c r E. apply (f_equal (@length Z)) in E. rewrite app_length in E. cbn [length] in E. lia. }
  destruct H as [(H1 & H2 & H3 & H4)|[(c & r & H1 & H2 & H3 & H4 & H5)|[(c & r & H1 & H2 & H3 & H4 & H5)|(c & r & e & q & H1 & H2 & H3 & H4 & H5 & H6 & H7)]]].
  - rewrite H1. cbn [Z.eqb]. rewrite H2. eexists. split; [reflexivity|]. split; auto. congruence.
  - rewrite H1. cbn [Z.eqb]. rewrite H2. eexists. split; [reflexivity|]. split; [intros; lia|]. intros Q. rewrite H4, H5 in Q. now apply IN in Q.
  - replace (ix a k =? 0) with false by lia. eexists. split; [reflexivity|]. split; [discriminate|]. intros Q. rewrite H4, H5 in Q. symmetry in Q. now apply IN in Q.
  - replace (ix a k =? 0) with false by lia. eexists. split; [reflexivity|]. split; [discriminate|]. intros Q. rewrite H6, H7 in Q. apply app_inv_head in Q. injection Q. intros. lia.
Qed.

Theorem C89_diff : forall a b p0, small a -> small b -> terminated a -> terminated b ->
  (str_of a = str_of b /\ FindDiff a b p0 = Ok (false, p0)) \/ (exists i, FindDiff a b p0 = Ok (true, Z.of_nat i) /\ differ (str_of a) (str_of b) i).
Proof.
  intros a b p0 _ _ Ta Tb. destruct (common a b Ta Tb) as (k & p & X & K1 & K2 & P & H). unfold FindDiff. rewrite X, bind_ok, !getA_ix, !bind_ok by lia.
  assert (F1 : forall t, firstn (length p) (p ++ t) = p). { intros t. rewrite firstn_app, Nat.sub_diag, firstn_all. cbn [firstn]. apply app_nil_r. }
  assert (F2 : forall (c : Z) r, nth_error (p ++ c :: r) (length p) = Some c). { intros c r. rewrite nth_error_app2, Nat.sub_diag by lia. reflexivity. }
  assert (F3 : nth_error p (length p) = None) by (apply nth_error_None; lia).
  assert (F4 : Z.of_nat (length p) = k) by exact P.
  destruct H as [(H1 & H2 & H3 & H4)|[(c & r & H1 & H2 & H3 & H4 & H5)|[(c & r & H1 & H2 & H3 & H4 & H5)|(c & r & e & q & H1 & H2 & H3 & H4 & H5 & H6 & H7)]]].
  - left. rewrite H1. cbn [Z.eqb negb]. rewrite !bind_ok, H2. split; [congruence|reflexivity].
  - right. exists (length p). rewrite H1. cbn [Z.eqb negb]. rewrite !bind_ok. replace (negb (ix b k =? 0)) with true by lia. rewrite F4. split; auto.
    rewrite H4, H5. split; [rewrite F1, firstn_all; auto|rewrite F2, F3; discriminate].
  - right. exists (length p). replace (negb (ix a k =? 0)) with true by lia. rewrite bind_ok, F4. split; auto.
    rewrite H4, H5. split; [rewrite F1, firstn_all; auto|rewrite F2, F3; discriminate].
  - right. exists (length p). replace (negb (ix a k =? 0)) with true by lia. rewrite bind_ok, F4. split; auto.
    rewrite H6, H7. split; [rewrite !F1; auto|rewrite !F2; congruence].
Qed.

Lemma at_occurs : forall x s i, terminated x -> terminated s -> 0 <= i -> (at_ x s i <-> occurs (str_of x) (str_of s) (Z.to_nat i)).
Proof.
  intros x s i Tx Ts I. destruct (str_facts x Tx) as (X1 & X2 & X3). destruct (str_facts s Ts) as (S1 & S2 & S3). split.
  - intros (_ & H1 & H2). exists (firstn (Z.to_nat i) (str_of s)), (skipn (Z.to_nat (i + zlen (str_of x))) (str_of s)). split; [|rewrite firstn_length; unfold zlen in *; lia].
    apply ix_ext.
    + rewrite !zlen_app, zlen_first, zlen_skip by lia. lia.
    + intros j J. rewrite ix_app, zlen_first by lia. replace (Z.min i (zlen (str_of s))) with i by lia. destruct (j <? i) eqn:E1; [rewrite ix_firstn by lia; auto|].
      rewrite ix_app by lia. destruct (j - i <? zlen (str_of x)) eqn:E2.
      * destruct (S3 j) as [_ ->]; [lia|]. destruct (X3 (j - i)) as [_ ->]; [lia|]. rewrite <- H2 by lia. f_equal. lia.
      * rewrite ix_skipn by lia. f_equal. lia.
  - intros (u & v & E & U). assert (ZU : zlen u = i) by (unfold zlen; lia). pose proof (zlen_nonneg _ v). pose proof (f_equal (@zlen Z) E) as L. rewrite !zlen_app in L.
    split; [auto|]. split; [lia|]. intros k K. destruct (S3 (i + k)) as [_ <-]; [lia|]. destruct (X3 k) as [_ <-]; [lia|].
    rewrite E. rewrite ix_app by lia. replace (i + k <? zlen u) with false by lia. rewrite ix_app by lia.
    replace (i + k - zlen u) with k by lia. replace (k <? zlen (str_of x)) with true by lia. auto.
Qed.

Theorem C89_find_next : forall x s pos p0, small x -> small s -> terminated x -> terminated s -> 0 <= pos ->
  (exists i, FindNext x s pos p0 = Ok (true, Z.of_nat i) /\ (Z.to_nat pos <= i)%nat /\ (i < length (str_of s))%nat /\ occurs (str_of x) (str_of s) i /\
     forall j, (Z.to_nat pos <= j < i)%nat -> ~ occurs (str_of x) (str_of s) j) \/
  (FindNext x s pos p0 = Ok (false, p0) /\ forall j, (Z.to_nat pos <= j < length (str_of s))%nat -> ~ occurs (str_of x) (str_of s) j).
Proof.
  intros x s pos p0 _ _ Tx Ts P. destruct (str_facts x Tx) as (X1 & X2 & X3). destruct (str_facts s Ts) as (S1 & S2 & S3).
  unfold FindNext. rewrite Length_ok, bind_ok. destruct (pos <? zlen (str_of s)) eqn:E.
  - destruct (next_loop_ok (S (S (length s) * S (length x))) x s pos 0 p0) as [(i & I1 & I2 & I3 & I4)|(I1 & I2)]; auto; try lia; try (intros; lia).
    + replace (Z.of_nat (S (S (length s) * S (length x)))) with (1 + (1 + zlen s) * (1 + zlen x)) by (unfold zlen; lia). nia.
    + assert (L : i < zlen (str_of s)).
      { destruct I3 as (_ & I3 & _). destruct (Z.eq_dec (zlen (str_of x)) 0) as [Z0|]; [|lia].
        assert (~ pos < i); [|lia]. intros Q. apply (I4 pos); [lia|]. split; [lia|]. split; [lia|]. intros; lia. }
      left. exists (Z.to_nat i). rewrite Z2Nat.id by lia. split; [auto|]. split; [lia|]. split; [unfold zlen in *; lia|]. split.
      * apply at_occurs; auto. lia.
      * intros j J Q. apply (I4 (Z.of_nat j)); [lia|]. apply at_occurs; auto; [lia|]. now rewrite Nat2Z.id.
    + right. split; auto. intros j J Q. apply (I2 (Z.of_nat j)); [lia|]. apply at_occurs; auto; [lia|]. now rewrite Nat2Z.id.
  - right. split; auto. intros j J. unfold zlen in *. lia.
Qed.

Theorem C89_find_prev : forall x s pos p0, small x -> small s -> terminated x -> terminated s ->
  (exists i, FindPrev x s pos p0 = Ok (true, Z.of_nat i) /\ Z.of_nat i <= pos /\ occurs (str_of x) (str_of s) i /\
     forall j, Z.of_nat j <= pos -> (i < j)%nat -> ~ occurs (str_of x) (str_of s) j) \/
  (FindPrev x s pos p0 = Ok (false, p0) /\ forall j, Z.of_nat j <= pos -> ~ occurs (str_of x) (str_of s) j).
Proof.
  intros x s pos p0 _ _ Tx Ts. destruct (str_facts x Tx) as (X1 & X2 & X3). destruct (str_facts s Ts) as (S1 & S2 & S3).
  unfold FindPrev. rewrite !Length_ok, !bind_ok.
  set (q := if pos >? zlen (str_of s) - zlen (str_of x) then zlen (str_of s) - zlen (str_of x) else pos).
  assert (Q : q = Z.min pos (zlen (str_of s) - zlen (str_of x))) by (unfold q; cases; lia).
  assert (HI : forall j, Z.of_nat j <= pos -> occurs (str_of x) (str_of s) j -> Z.of_nat j <= q).
  { intros j J O. rewrite <- (Nat2Z.id j) in O. apply at_occurs in O; auto; [|lia]. destruct O as (_ & O & _). lia. }
  destruct (q >=? 0) eqn:E.
  - destruct (prev_loop_ok (S (S (length s) * S (length x))) x s q 0 p0) as [(i & I1 & I2 & I3 & I4)|(I1 & I2)]; auto; try lia; try (intros; lia).
    + replace (Z.of_nat (S (S (length s) * S (length x)))) with (1 + (1 + zlen s) * (1 + zlen x)) by (unfold zlen; lia). nia.
    + assert (0 <= i) by (destruct I3; lia). left. exists (Z.to_nat i). rewrite Z2Nat.id by lia. split; [auto|]. split; [lia|]. split.
      * apply at_occurs; auto.
      * intros j J1 J2 O. pose proof (HI j J1 O). apply (I4 (Z.of_nat j)); [lia|]. apply at_occurs; auto; [lia|]. now rewrite Nat2Z.id.
    + right. split; auto. intros j J O. pose proof (HI j J O). apply (I2 (Z.of_nat j)); [lia|]. apply at_occurs; auto; [lia|]. now rewrite Nat2Z.id.
  - right. split; auto. intros j J O. pose proof (HI j J O). lia.
Qed.

(** Letters and the characters from 40X to 5FX. *)
Definition plain (c : Z) : bool := ((64 <=? c) && (c <=? 95) || (97 <=? c) && (c <=? 122))%bool.
Lemma cap_plain : forall c, plain c = true -> Z.land c 95 = capital c /\ capital c <> 0.
Proof.
  intros c H. assert (B : 64 <= c <= 122) by (unfold plain in H; lia).
  assert (Q : forallb (fun c => implb (plain c) ((Z.land c 95 =? capital c) && negb (capital c =? 0))) (map (fun n => Z.of_nat n) (seq 64 59)) = true) by (vm_compute; reflexivity).
  rewrite forallb_forall in Q. specialize (Q c). rewrite H in Q. cbn [implb] in Q.
  assert (In c (map (fun n => Z.of_nat n) (seq 64 59))) as I. { apply in_map_iff. exists (Z.to_nat c). split; [lia|]. apply in_seq. lia. }
  specialize (Q I). lia.
Qed.
Theorem C89_capitalize_partial : forall s, small s -> terminated s -> Forall (fun c => plain c = true) (str_of s) ->
  exists s', Capitalize s = Ok s' /\ holds s s' (map capital (str_of s)).
Proof.
  intros s _ T F. destruct (str_facts s T) as (A & B & C). rewrite Forall_forall in F.
  assert (NZ : forall j, 0 <= j < zlen (str_of s) -> ix s j <> 0) by (intros j J; apply C; lia).
  destruct (capitalize_loop_ok (S (length s)) s 0 (zlen (str_of s)) ltac:(lia) ltac:(lia) B NZ ltac:(unfold zlen in *; lia)) as (s' & X & Y & W).
  - assert (IXM : forall j, 0 <= j < zlen (str_of s) -> ix (map capital (str_of s)) j = capital (ix (str_of s) j)).
    { intros j J. unfold ix. change 0 with (capital 0) at 1. apply map_nth. }
    assert (PL : forall j, 0 <= j < zlen (str_of s) -> plain (ix (str_of s) j) = true).
    { intros j J. apply F. unfold ix. apply nth_In. unfold zlen in J. lia. }
    assert (ZM : zlen (map capital (str_of s)) = zlen (str_of s)) by (unfold zlen; now rewrite map_length).
    exists s'. split; auto. apply holds_by; rewrite ?ZM; auto; try lia.
    + intros H. apply in_map_iff in H. destruct H as (c & H1 & H2). apply F in H2. apply cap_plain in H2. lia.
    + intros j J. rewrite W by lia. replace ((0 <=? j) && (j <? zlen (str_of s))) with true by lia. rewrite IXM by auto.
      destruct (C j) as [_ <-]; [lia|]. apply cap_plain. auto.
    + rewrite W by lia. cases; auto; lia.
Qed.
(** Digits become control characters, and a blank ends the string. *)
Theorem C89_capitalize_refuted : (exists s s', terminated s /\ Capitalize s = Ok s' /\ str_of s = [97; 32; 98] /\ str_of s' = [65] /\ map capital (str_of s) = [65; 32; 66]) /\
  (exists s s', terminated s /\ Capitalize s = Ok s' /\ str_of s = [97; 49] /\ str_of s' = [65; 17]).
Proof.
  split.
  - exists [97; 32; 98; 0], [65; 0; 66; 0]. split; [unfold terminated; cbn; auto|]. vm_compute. auto.
  - exists [97; 49; 0], [65; 17; 0]. split; [unfold terminated; cbn; auto|]. vm_compute. auto.
Qed.

Example C89_met : exists d', Insert [88; 89; 0] 1 [65; 66; 67; 0; 0] = Ok d' /\ str_of d' = [65; 88; 89; 66] /\
  Delete [65; 66; 67; 0] 1 1 = Ok [65; 67; 0; 0] /\ FindNext [66; 0] [65; 66; 66; 0] 0 7 = Ok (true, 1) /\ FindPrev [66; 0] [65; 66; 66; 0] 9 7 = Ok (true, 2).
Proof. eexists. split; [vm_compute; reflexivity|]. split; [vm_compute; reflexivity|]. vm_compute. auto. Qed.

Print Assumptions C89_length.
Print Assumptions C89_assign.
Print Assumptions C89_extract.
Print Assumptions C89_delete_partial.
Print Assumptions C89_delete_refuted.
Print Assumptions C89_insert_partial.
Print Assumptions C89_replace.
Print Assumptions C89_append.
Print Assumptions C89_concat.
Print Assumptions C89_can_partial.
Print Assumptions C89_compare.
Print Assumptions C89_equal.
Print Assumptions C89_diff.
Print Assumptions C89_find_next.
Print Assumptions C89_find_prev.
Print Assumptions C89_capitalize_partial.
Print Assumptions C89_capitalize_refuted.
