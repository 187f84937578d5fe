(** Properties C28 to C31: module Strings.  [str_of a] is the character sequence held by the array a (everything before
    the first 0X), [terminated a] says that a 0X is present. *)
From Verif Require Import Base ArrZ StringsModel StringsSpec StringsProofs StringsMatchProofs.

Lemma fits_terminated : forall (d d' : list Z) s, zlen d' = zlen d -> str_of d' = s -> zlen s < zlen d -> terminated d'.
Proof. intros d d' s H1 H2 H3. apply terminated_ix. rewrite H2, H1. exact H3. Qed.

(** C28.  Append never fails, keeps the array length, and leaves the concatenation cut to LEN(dest). *)
Theorem C28_append : forall extra d, zlen extra <= 32767 -> zlen d <= 32767 ->
  exists d', Append extra d = Ok d' /\ zlen d' = zlen d /\
    str_of d' = firstn (length d) (str_of d ++ str_of extra) /\
    (zlen (str_of d) + zlen (str_of extra) < zlen d -> terminated d' /\ str_of d' = str_of d ++ str_of extra).
Proof.
  intros extra d He Hd. destruct (Append_str extra d He Hd) as (d' & H1 & H2 & H3).
  exists d'. split; auto. split; auto. split; auto. intro F.
  assert (E : str_of d' = str_of d ++ str_of extra).
  { rewrite H3. apply firstn_all2. rewrite app_length. unfold zlen in *. lia. }
  split; auto. eapply fits_terminated; eauto. rewrite zlen_app. lia.
Qed.
Print Assumptions C28_append.
Example C28_nonvacuous : Append [99; 100; 0; 9] [97; 98; 0; 7; 7; 7] = Ok [97; 98; 99; 100; 0; 7].
Proof. reflexivity. Qed.
(** The documented claim "the result is always a terminated string" is false: Append drops the terminator when the
    result does not fit. *)
Theorem C28_append_terminated_refuted : exists extra d d',
  terminated extra /\ terminated d /\ Append extra d = Ok d' /\ ~ terminated d'.
Proof.
  exists [99; 100; 0], [97; 98; 0], [97; 98; 99]. unfold terminated.
  split; [cbn; auto|]. split; [cbn; auto|]. split; [reflexivity|].
  cbn. intros [H|[H|[H|[]]]]; discriminate.
Qed.
Print Assumptions C28_append_terminated_refuted.
(** Length: exact up to MAX(INTEGER), saturating above. *)
Theorem C28_length : forall s, Length s = Ok (Z.min (zlen (str_of s)) 32767).
Proof. exact Length_saturates. Qed.
Print Assumptions C28_length.

(** C29.  Insert inside the string, when the inserted part fits. *)
Theorem C29_insert : forall source pos d, zlen source <= 32767 -> zlen d <= 32767 ->
  0 <= pos <= zlen (str_of d) -> pos + zlen (str_of source) <= zlen d ->
  exists d', Insert source pos d = Ok d' /\ zlen d' = zlen d /\
    str_of d' = firstn (length d) (insert_at (str_of source) (Z.to_nat pos) (str_of d)) /\
    (zlen (str_of d) + zlen (str_of source) < zlen d ->
       terminated d' /\ str_of d' = insert_at (str_of source) (Z.to_nat pos) (str_of d)).
Proof.
  intros source pos d He Hd Hp Hf. destruct (Insert_str source pos d He Hd Hp Hf) as (d' & H1 & H2 & H3).
  exists d'. split; auto. split; auto. split; auto. intro F.
  assert (L : zlen (insert_at (str_of source) (Z.to_nat pos) (str_of d)) = zlen (str_of d) + zlen (str_of source)).
  { unfold insert_at. rewrite !zlen_app, zlen_firstn, zlen_skipn by lia. lia. }
  assert (E : str_of d' = insert_at (str_of source) (Z.to_nat pos) (str_of d)).
  { rewrite H3. apply firstn_all2. unfold zlen in *. lia. }
  split; auto. eapply fits_terminated; eauto. lia.
Qed.
Print Assumptions C29_insert.
Example C29_insert_nonvacuous : Insert [120; 121; 0] 1 [97; 98; 99; 0; 7; 7; 7] = Ok [97; 120; 121; 98; 99; 0; 7].
Proof. reflexivity. Qed.
(** For pos > Length(dst) line 57 means to append src to dst, but passes the arguments of Append in the wrong order: the
    destination is left unchanged, always. *)
Theorem C29_insert_beyond_refuted : forall source pos d, zlen source <= 32767 -> zlen d <= 32767 ->
  zlen (str_of d) < pos -> Insert source pos d = Ok d.
Proof. exact Insert_beyond. Qed.
Print Assumptions C29_insert_beyond_refuted.
(** Instead of truncating, Insert stops with an index trap whenever the inserted part itself does not fit. *)
Theorem C29_insert_truncation_refuted : forall source pos d, zlen source <= 32767 -> zlen d <= 32767 ->
  0 <= pos <= zlen (str_of d) -> zlen d < pos + zlen (str_of source) -> Insert source pos d = Trap (-2).
Proof. exact Insert_overflow_traps. Qed.
Print Assumptions C29_insert_truncation_refuted.

(** Delete removes exactly n characters from pos (or the rest), and does nothing behind the end. *)
Theorem C29_delete : forall s pos n, zlen s <= 32767 -> 0 <= pos -> 0 <= n ->
  exists s', Delete s pos n = Ok s' /\ zlen s' = zlen s /\
    str_of s' = (if pos <? zlen (str_of s) then delete_at (str_of s) (Z.to_nat pos) (Z.to_nat n) else str_of s) /\
    (terminated s -> terminated s').
Proof.
  intros s pos n Hs Hp Hn. destruct (pos <? zlen (str_of s)) eqn:E.
  - destruct (Delete_spec s pos n Hs ltac:(lia) Hn) as (s' & H1 & H2 & H3).
    exists s'. repeat split; auto. intro T. apply terminated_ix in T. eapply fits_terminated; eauto.
    unfold delete_at. rewrite zlen_app, zlen_firstn by lia.
    unfold zlen in *. rewrite skipn_length. lia.
  - exists s. repeat split; auto. apply Delete_outside; auto. lia.
Qed.
Print Assumptions C29_delete.
Example C29_delete_nonvacuous : Delete [97; 98; 99; 100; 0; 7] 1 2 = Ok [97; 100; 0; 100; 0; 7].
Proof. reflexivity. Qed.

(** Extract copies the requested part when it fits. *)
Theorem C29_extract : forall source pos n d, zlen source <= 32767 -> zlen d <= 32767 -> terminated source ->
  0 <= pos -> 0 <= n -> 1 <= zlen d -> Z.min n (zlen (str_of source) - pos) < zlen d ->
  exists d', Extract source pos n d = Ok d' /\ zlen d' = zlen d /\ terminated d' /\
    str_of d' = extract_at (str_of source) (Z.to_nat pos) (Z.to_nat n).
Proof.
  intros source pos n d Hs Hd T Hp Hn Hl F.
  destruct (Z_lt_dec pos (zlen (str_of source))) as [Hi|Ho].
  - destruct (Extract_spec source pos n d Hs Hd T ltac:(lia) Hn Hl) as [H _]. apply H. exact F.
  - unfold Extract. rewrite Length_spec by auto. rewrite bind_ok. cbv zeta.
    pose proof (zlen_nonneg _ (str_of source)).
    replace (pos <? 0) with false by lia. cbv iota. replace (pos >=? zlen (str_of source)) with true by lia.
    rewrite setA_ix by lia. eexists. split; [reflexivity|]. split; [apply zlen_set|].
    assert (E : str_of (set_nth (Z.to_nat 0) 0 d) = []).
    { destruct d; [rewrite zlen_nil in Hl; lia|]. reflexivity. }
    split.
    + eapply fits_terminated; [apply zlen_set|exact E|rewrite zlen_nil; lia].
    + rewrite E. unfold extract_at. rewrite skipn_all2 by (unfold zlen in *; lia). now rewrite firstn_nil.
Qed.
Print Assumptions C29_extract.
Example C29_extract_nonvacuous : Extract [97; 98; 99; 100; 0] 1 2 [7; 7; 7; 7] = Ok [98; 99; 0; 7].
Proof. reflexivity. Qed.
(** Documented: the result is truncated to the destination.  In fact every extraction that does not fit traps. *)
Theorem C29_extract_truncation_refuted : forall source pos n d, zlen source <= 32767 -> zlen d <= 32767 -> terminated source ->
  0 <= pos < zlen (str_of source) -> 0 <= n -> 1 <= zlen d ->
  zlen d <= Z.min n (zlen (str_of source) - pos) -> Extract source pos n d = Trap (-2).
Proof.
  intros source pos n d Hs Hd T Hp Hn Hl F.
  destruct (Extract_spec source pos n d Hs Hd T Hp Hn Hl) as [_ H]. apply H. exact F.
Qed.
Print Assumptions C29_extract_truncation_refuted.

(** Replace: exact behaviour.  The documentation says Delete(dst, pos, Length(src)) then Insert; the code deletes
    pos + Length(src) characters. *)
Theorem C29_replace_exact : forall source pos d, zlen source <= 32767 -> zlen d <= 32767 ->
  0 <= pos < zlen (str_of d) -> zlen (str_of d) + zlen (str_of source) < zlen d ->
  exists d', Replace source pos d = Ok d' /\ zlen d' = zlen d /\ terminated d' /\
    str_of d' = insert_at (str_of source) (Z.to_nat pos)
                 (delete_at (str_of d) (Z.to_nat pos) (Z.to_nat (pos + zlen (str_of source)))).
Proof.
  intros source pos d Hs Hd Hp F. unfold Replace. rewrite Length_spec by auto. rewrite bind_ok.
  pose proof (zlen_nonneg _ (str_of source)).
  destruct (Delete_spec d pos (pos + zlen (str_of source)) Hd Hp ltac:(lia)) as (d1 & H1 & H2 & H3).
  rewrite H1, bind_ok.
  assert (L : pos <= zlen (str_of d1) <= zlen (str_of d)).
  { rewrite H3. unfold delete_at. rewrite zlen_app, zlen_firstn by lia. unfold zlen in *. rewrite skipn_length. lia. }
  destruct (C29_insert source pos d1 Hs ltac:(lia) ltac:(lia) ltac:(lia)) as (d' & H4 & H5 & _ & H6).
  destruct (H6 ltac:(lia)) as [H7 H8]. exists d'. rewrite <- H3. repeat split; auto. lia.
Qed.
Print Assumptions C29_replace_exact.
(** The documented result holds at position 0, or when everything behind pos is replaced. *)
Theorem C29_replace_partial : forall source pos d, zlen source <= 32767 -> zlen d <= 32767 ->
  0 <= pos < zlen (str_of d) -> zlen (str_of d) + zlen (str_of source) < zlen d ->
  pos = 0 \/ zlen (str_of d) <= pos + zlen (str_of source) ->
  exists d', Replace source pos d = Ok d' /\ zlen d' = zlen d /\ terminated d' /\
    str_of d' = insert_at (str_of source) (Z.to_nat pos)
                 (delete_at (str_of d) (Z.to_nat pos) (length (str_of source))).
Proof.
  intros source pos d Hs Hd Hp F C.
  destruct (C29_replace_exact source pos d Hs Hd Hp F) as (d' & H1 & H2 & H3 & H4).
  exists d'. repeat split; auto. rewrite H4. f_equal. unfold delete_at. f_equal.
  destruct C as [->|C].
  - f_equal. unfold zlen. lia.
  - unfold zlen in *. rewrite !skipn_all2 by lia. reflexivity.
Qed.
Print Assumptions C29_replace_partial.
Theorem C29_replace_refuted : exists source pos d d',
  terminated source /\ terminated d /\ 0 <= pos < zlen (str_of d) /\ zlen (str_of d) + zlen (str_of source) < zlen d /\
  Replace source pos d = Ok d' /\
  str_of d' <> insert_at (str_of source) (Z.to_nat pos) (delete_at (str_of d) (Z.to_nat pos) (length (str_of source))).
Proof.
  exists [120; 0], 1, [97; 98; 99; 100; 0; 0; 0], [97; 120; 100; 0; 0; 0; 0].
  unfold terminated. refine (conj _ (conj _ (conj _ (conj _ (conj _ _))))); try reflexivity; try (cbn; tauto); cbn; try lia.
  discriminate.
Qed.
Print Assumptions C29_replace_refuted.

(** C30.  Pos returns the first occurrence at or after the start position, or -1 if there is none. *)
Theorem C30_pos : forall p s pos, zlen p <= 32767 -> zlen s <= 32767 -> str_of p <> [] -> 0 <= pos ->
  exists r, Pos p s pos = Ok r /\
    ((r = -1 /\ forall k, pos <= k -> ~ occurs_at (str_of p) (str_of s) (Z.to_nat k)) \/
     (pos <= r /\ occurs_at (str_of p) (str_of s) (Z.to_nat r) /\
      forall k, pos <= k < r -> ~ occurs_at (str_of p) (str_of s) (Z.to_nat k))).
Proof. exact Pos_spec. Qed.
Print Assumptions C30_pos.
Example C30_nonvacuous : Pos [98; 0] [97; 98; 99; 98; 0] 2 = Ok 3 /\ Pos [99; 98; 0; 1] [97; 98; 99; 0] 0 = Ok (-1).
Proof. split; reflexivity. Qed.
(** With an empty pattern the answer is 0 whatever the start position is. *)
Theorem C30_empty_pattern_refuted : forall p s pos, zlen p <= 32767 -> zlen s <= 32767 -> str_of p = [] ->
  Pos p s pos = Ok 0.
Proof. intros p s pos Hp Hs E. unfold Pos. rewrite !Length_spec by auto. rewrite !bind_ok. rewrite E. reflexivity. Qed.
Print Assumptions C30_empty_pattern_refuted.

(** C31.  Match decides the wildcard language, for every string and pattern, and always terminates without a trap. *)
Theorem C31_match : forall s p, zlen s <= 32767 -> zlen p <= 32767 ->
  exists b, Match s p = Ok b /\ (b = true <-> glob (str_of s) (str_of p)).
Proof. exact Match_spec. Qed.
Print Assumptions C31_match.
Example C31_nonvacuous :
  Match [97; 98; 99; 98; 100; 0] [97; 42; 98; 42; 100; 0] = Ok true /\ Match [97; 98; 99; 0] [42; 98; 0] = Ok false.
Proof. split; reflexivity. Qed.
(** Cap maps every character of the string to its upper-case equivalent. *)
Theorem C31_cap : forall s, terminated s -> exists s', Cap s = Ok s' /\ zlen s' = zlen s /\ str_of s' = map upper (str_of s).
Proof. exact Cap_spec. Qed.
Print Assumptions C31_cap.
