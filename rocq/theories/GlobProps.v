(** C98: comparison with a pattern. *)
From Verif Require Import Base ArrZ OstrModel OstrSpec OstrProofs OstrProps GlobModel GlobSpec.

Lemma skip_ix : forall (a : list Z) k, 0 <= k < zlen a -> skipn (Z.to_nat k) a = ix a k :: skipn (Z.to_nat (k + 1)) a.
Proof.
  intros a k K. replace (Z.to_nat (k + 1)) with (S (Z.to_nat k)) by lia. unfold ix. unfold zlen in K. assert (H : (Z.to_nat k < length a)%nat) by lia. revert H. generalize (Z.to_nat k). clear.
  intros n. revert a. induction n as [|n IH]; intros [|x a] H; cbn in *; try lia; [reflexivity|]. apply IH. lia.
Qed.
Lemma skipn_skipn : forall (a : list Z) m n, skipn m (skipn n a) = skipn (m + n) a.
Proof. intros a m n. revert a. induction n as [|n IH]; intros a; [rewrite Nat.add_0_r; reflexivity|]. rewrite Nat.add_succ_r. destruct a; [rewrite !skipn_nil; reflexivity|]. apply IH. Qed.
Lemma match_star : forall p s, matches (42 :: p) s <-> exists k, (k <= length s)%nat /\ matches p (skipn k s).
Proof.
  intros p s. split.
  - intros H. inversion H; subst; [|congruence]. exists (length u). rewrite app_length. split; [lia|]. rewrite skipn_app, skipn_all, Nat.sub_diag. exact H1.
  - intros (k & K & M). rewrite <- (firstn_skipn k s). constructor. exact M.
Qed.
Lemma tries_ok : forall (body : Z -> res bool) (P : Z -> Prop) n i, (forall j, i <= j < i + Z.of_nat n -> exists b, body j = Ok b /\ (b = true <-> P j)) ->
  exists b, tries body n i = Ok b /\ (b = true <-> exists j, i <= j < i + Z.of_nat n /\ P j).
Proof.
  intros body P n. induction n as [|n IH]; intros i H; cbn [tries].
  - exists false. split; [reflexivity|]. split; [discriminate|]. intros (j & J & _). lia.
  - destruct (H i ltac:(lia)) as (b & -> & B). rewrite bind_ok. destruct b.
    + exists true. split; [reflexivity|]. split; [intros _|reflexivity]. exists i. split; [lia|apply B; reflexivity].
    + destruct (IH (i + 1)) as (b & -> & C); [intros j J; apply H; lia|]. exists b. split; [reflexivity|]. rewrite C. split.
      * intros (j & J & Q). exists j. split; [lia|exact Q].
      * intros (j & J & Q). exists j. split; [|exact Q]. destruct (Z.eq_dec j i) as [->|N]; [apply B in Q; discriminate|lia].
Qed.
Lemma rec_ok : forall pat s, terminated pat -> terminated s -> ~ In 63 (str_of pat) -> forall f i j, zlen (str_of pat) - j < Z.of_nat f -> 0 <= i <= zlen (str_of s) -> 0 <= j <= zlen (str_of pat) ->
  exists b, RecMatch f (zlen (str_of s)) (zlen (str_of pat)) s pat i j = Ok b /\ (b = true <-> matches (skipn (Z.to_nat j) (str_of pat)) (skipn (Z.to_nat i) (str_of s))).
Proof.
  intros pat s TP TS NQ. destruct (str_facts pat TP) as (PA & PB & PC). destruct (str_facts s TS) as (SA & SB & SC). induction f as [|f IH]; intros i j F I J; [lia|]. cbn [RecMatch].
  destruct (j =? zlen (str_of pat)) eqn:EJ.
  - assert (SJ : skipn (Z.to_nat j) (str_of pat) = []) by (apply skipn_all2; unfold zlen in *; lia). rewrite SJ. destruct (i =? zlen (str_of s)) eqn:EI; cbn [andb].
    + exists true. split; [reflexivity|]. split; [intros _|reflexivity]. rewrite skipn_all2 by (unfold zlen in *; lia). constructor.
    + exists false. split; [reflexivity|]. split; [discriminate|]. rewrite skip_ix by lia. intros H. inversion H.
  - rewrite andb_false_r. rewrite getA_ix, bind_ok by lia. destruct (PC j ltac:(lia)) as [PN PV]. rewrite (skip_ix (str_of pat) j) by lia. rewrite PV. destruct (ix pat j =? 42) eqn:E42.
    + apply Z.eqb_eq in E42. rewrite E42. destruct (j =? zlen (str_of pat) - 1) eqn:EL.
      * exists true. split; [reflexivity|]. split; [intros _|reflexivity]. rewrite (skipn_all2 (str_of pat)) by (unfold zlen in *; lia). rewrite <- (app_nil_r (skipn (Z.to_nat i) (str_of s))). constructor. constructor.
      * destruct (tries_ok (fun i => RecMatch f (zlen (str_of s)) (zlen (str_of pat)) s pat i (j + 1)) (fun k => matches (skipn (Z.to_nat (j + 1)) (str_of pat)) (skipn (Z.to_nat k) (str_of s))) (Z.to_nat (zlen (str_of s) - i + 1)) i) as (b & -> & B).
        { intros k K. apply IH; lia. }
        exists b. split; [reflexivity|]. rewrite B, match_star. split.
        -- intros (k & K & M). exists (Z.to_nat (k - i)). split; [rewrite skipn_length; unfold zlen in *; lia|]. rewrite skipn_skipn. replace (Z.to_nat (k - i) + Z.to_nat i)%nat with (Z.to_nat k) by lia. exact M.
        -- intros (k & K & M). exists (Z.of_nat k + i). rewrite skipn_length in K. split; [unfold zlen in *; lia|]. rewrite skipn_skipn in M. replace (Z.to_nat (Z.of_nat k + i)) with (k + Z.to_nat i)%nat by lia. exact M.
    + assert (N63 : ix pat j <> 63). { rewrite <- PV. intros Q. apply NQ. rewrite <- Q. unfold ix. apply nth_In. unfold zlen in *. lia. }
      replace (ix pat j =? 63) with false by lia. cbn [negb]. rewrite getA_ix, bind_ok by lia. destruct (ix pat j =? ix s i) eqn:EC; cbn [negb].
      * destruct (Z.eq_dec i (zlen (str_of s))) as [->|NI]; [exfalso; rewrite SB in EC; lia|]. destruct (SC i ltac:(lia)) as [_ SV]. rewrite (skip_ix (str_of s) i), SV by lia. replace (ix s i) with (ix pat j) by lia.
        destruct (IH (i + 1) (j + 1) ltac:(lia) ltac:(lia) ltac:(lia)) as (b & -> & B). exists b. split; [reflexivity|]. rewrite B. split.
        -- intros M. apply m_self; [lia|exact N63|exact M].
        -- intros M. inversion M; subst; try lia; assumption.
      * exists false. split; [reflexivity|]. split; [discriminate|]. intros M. exfalso. destruct (Z.eq_dec i (zlen (str_of s))) as [->|NI].
        -- rewrite (skipn_all2 (str_of s)) in M by (unfold zlen; lia). inversion M; subst; try lia.
        -- destruct (SC i ltac:(lia)) as [_ SV]. rewrite (skip_ix (str_of s) i), SV in M by lia. inversion M; subst; try lia.
Qed.
(** Match decides the comparison for every pattern without "?". *)
Theorem C98_match_partial : forall pat s, terminated pat -> terminated s -> ~ In 63 (str_of pat) -> exists b, Match pat s = Ok b /\ (b = true <-> matches (str_of pat) (str_of s)).
Proof.
  intros pat s TP TS NQ. unfold Match. rewrite !Length_ok, !bind_ok. destruct (rec_ok pat s TP TS NQ (S (length pat)) 0 0) as (b & E & B).
  - pose proof (str_of_length pat). unfold zlen. lia.
  - pose proof (zlen_nonneg _ (str_of s)). lia.
  - pose proof (zlen_nonneg _ (str_of pat)). lia.
  - exists b. split; [exact E|]. exact B.
Qed.
(** "?*" is found in the empty string. *)
Theorem C98_empty_refuted : Match [63; 42; 0] [0] = Ok true /\ ~ matches [63; 42] [].
Proof. split; [reflexivity|]. intros H. inversion H; subst; congruence. Qed.
(** "*?x" makes the comparison read behind the array that holds "a". *)
Theorem C98_bounds_refuted : exists t, Match [42; 63; 120; 0] [97; 0] = Trap t.
Proof. eexists. vm_compute. reflexivity. Qed.
(** The result of "?a" depends on what is behind the end of the string. *)
Theorem C98_behind_refuted : exists s1 s2, str_of s1 = [] /\ str_of s2 = [] /\ Match [63; 97; 42; 0] s1 = Ok true /\ Match [63; 97; 42; 0] s2 = Ok false.
Proof. exists [0; 97], [0; 98]. repeat split; reflexivity. Qed.
(** A non-trivial case: "*.M*d" and "a.b.Mod". *)
Example C98_met : Match [42; 46; 77; 42; 100; 0] [97; 46; 98; 46; 77; 111; 100; 0] = Ok true /\ Match [42; 46; 77; 42; 100; 0] [97; 46; 98; 46; 77; 111; 0] = Ok false /\
  matches [42; 46; 77; 42; 100] [97; 46; 98; 46; 77; 111; 100].
Proof.
  split; [reflexivity|]. split; [reflexivity|]. apply (m_many _ [97; 46; 98]). apply m_self; [lia|lia|]. apply m_self; [lia|lia|]. apply (m_many _ [111]). apply m_self; [lia|lia|constructor].
Qed.
Print Assumptions C98_match_partial. Print Assumptions C98_empty_refuted. Print Assumptions C98_bounds_refuted. Print Assumptions C98_behind_refuted.
