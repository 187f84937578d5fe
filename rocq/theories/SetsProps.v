(** C70: sets of any size. *)
From Verif Require Import Base ArrZ OpsProps ArithModel ArithProofs SetsModel SetsSpec.
Ltac Zify.zify_post_hook ::= Z.to_euclidean_division_equations.

(** * Lemmas *)
Lemma words_ix : forall b s j, words b s -> 0 <= j < zlen s -> in_uint b (ix s j).
Proof.
  intros b s j W J. unfold words in W. rewrite Forall_forall in W. apply W. unfold ix. apply nth_In. unfold zlen in J. lia.
Qed.
Lemma ix_words : forall b s, (forall j, 0 <= j < zlen s -> in_uint b (ix s j)) -> words b s.
Proof.
  intros b s H. apply Forall_forall. intros x X. apply In_nth with (d := 0) in X. destruct X as (k & K & <-).
  specialize (H (Z.of_nat k)). unfold ix, zlen in H. rewrite Nat2Z.id in H. apply H. lia.
Qed.
Lemma widths_pos : forall n b, widths n b -> 0 < b /\ 0 < n <= 32 /\ 0 < max_int n.
Proof. intros n b [[-> ->]|[[-> ->]|[-> ->]]]; cbn; lia. Qed.
Lemma inc_ok : forall n b i, widths n b -> 0 <= i < max_int n -> inc n i = Ok (i + 1).
Proof.
  intros n b i W I. unfold inc.
  assert (R : in_int n (i + 1)) by (unfold in_int, max_int in *; lia).
  destruct (n <? 32) eqn:E; [f_equal; apply wrap_s_id; [pose proof (widths_pos n b W); lia|exact R]|apply chk_ok; exact R].
Qed.
Lemma div_room : forall b s x, 0 < b -> room b s x -> 0 <= x / b < zlen s /\ 0 <= x mod b < b.
Proof. intros b s x B R. unfold room in R. split; [|apply Z.mod_pos_bound; lia]. split; [apply Z.div_pos; lia|]. apply Z.div_lt_upper_bound; lia. Qed.
Lemma room_of : forall b s j k, 0 <= j < zlen s -> 0 <= k < b -> room b s (j * b + k) /\ (j * b + k) / b = j /\ (j * b + k) mod b = k.
Proof.
  intros b s j k J K. unfold room. split; [nia|]. split.
  - symmetry. apply Z.div_unique with (r := k); lia.
  - symmetry. apply Z.mod_unique with (q := j); lia.
Qed.
Lemma inword_mem : forall b s x, 0 < b -> room b s x -> (inword b (x mod b) (ix s (x / b)) = true <-> mem b s x).
Proof.
  intros b s x B R. destruct (div_room b s x B R) as [_ M]. unfold inword, mem. unfold room in R.
  rewrite (proj2 (Z.leb_le 0 _)), (proj2 (Z.ltb_lt _ b)) by lia. cbn [andb]. tauto.
Qed.
(** Two arrays of one length differ in a word. *)
Lemma put_mem : forall b s x v, 0 < b -> words b s -> room b s x -> in_uint b v ->
  let s' := set_nth (Z.to_nat (x / b)) v s in
  words b s' /\ zlen s' = zlen s /\
  forall y, mem b s' y <-> if y / b =? x / b then room b s y /\ Z.testbit v (y mod b) = true else mem b s y.
Proof.
  intros b s x v B W R V s'. destruct (div_room b s x B R) as [D _].
  assert (L : zlen s' = zlen s) by (unfold s', zlen; rewrite set_nth_length; reflexivity).
  split; [|split; [exact L|]].
  - apply ix_words. intros j J. unfold s'. rewrite ix_set by lia. destruct (j =? x / b); [exact V|]. apply words_ix; [exact W|lia].
  - intros y. unfold mem, room. rewrite L. destruct (y / b =? x / b) eqn:E.
    + split; intros (A & H); (split; [exact A|]); unfold s' in *; rewrite ix_set in * by (try apply Z.div_pos; lia); rewrite E in *; exact H.
    + split; intros (A & H); (split; [exact A|]); unfold s' in *; rewrite ix_set in * by (try apply Z.div_pos; lia); rewrite E in *; exact H.
Qed.

(** * Single elements *)
(** An element is added, removed or looked up, and no other one is touched. *)
Theorem C70_incl : forall b s x, 0 < b -> words b s -> room b s x ->
  exists s', Incl b s x = Ok s' /\ words b s' /\ zlen s' = zlen s /\ forall y, mem b s' y <-> mem b s y \/ y = x.
Proof.
  intros b s x B W R. destruct (div_room b s x B R) as [D M]. unfold Incl. rewrite getA_ix by lia. cbn [bind].
  destruct (INCL_bits b (ix s (x / b)) (x mod b) B) as (v & E & V & BT); [apply words_ix; [exact W|lia]|lia|].
  rewrite E. cbn [bind]. rewrite setA_ix by lia. eexists. split; [reflexivity|].
  destruct (put_mem b s x v B W R V) as (P1 & P2 & P3). split; [exact P1|]. split; [exact P2|].
  intros y. rewrite P3. destruct (y / b =? x / b) eqn:Q.
  - apply Z.eqb_eq in Q. rewrite BT by (apply Z.mod_pos_bound; lia). unfold mem, room in *. rewrite orb_true_iff, Z.eqb_eq, Q.
    assert (QQ : y mod b = x mod b <-> y = x).
    { split; [|intros ->; reflexivity]. intros. rewrite (Z.div_mod y b), (Z.div_mod x b) by lia. congruence. }
    rewrite QQ. split; [intros (? & [?|?]); auto|]. intros [(? & ?)| ->]; auto.
  - apply Z.eqb_neq in Q. split; [auto|]. intros [H| ->]; [exact H|congruence].
Qed.
Print Assumptions C70_incl.
Theorem C70_excl : forall b s x, 0 < b -> words b s -> room b s x ->
  exists s', Excl b s x = Ok s' /\ words b s' /\ zlen s' = zlen s /\ forall y, mem b s' y <-> mem b s y /\ y <> x.
Proof.
  intros b s x B W R. destruct (div_room b s x B R) as [D M]. unfold Excl. rewrite getA_ix by lia. cbn [bind].
  destruct (EXCL_bits b (ix s (x / b)) (x mod b) B) as (v & E & V & BT); [apply words_ix; [exact W|lia]|lia|].
  rewrite E. cbn [bind]. rewrite setA_ix by lia. eexists. split; [reflexivity|].
  destruct (put_mem b s x v B W R V) as (P1 & P2 & P3). split; [exact P1|]. split; [exact P2|].
  intros y. rewrite P3. destruct (y / b =? x / b) eqn:Q.
  - apply Z.eqb_eq in Q. rewrite BT by (apply Z.mod_pos_bound; lia). unfold mem, room in *. rewrite andb_true_iff, negb_true_iff, Z.eqb_neq, Q.
    assert (QQ : y mod b = x mod b <-> y = x).
    { split; [|intros ->; reflexivity]. intros. rewrite (Z.div_mod y b), (Z.div_mod x b) by lia. congruence. }
    rewrite QQ. tauto.
  - apply Z.eqb_neq in Q. split; [|tauto]. intros H. split; [exact H|]. intros ->. congruence.
Qed.
Print Assumptions C70_excl.
Theorem C70_in : forall b s x, 0 < b -> room b s x -> exists r, In b s x = Ok r /\ (r = true <-> mem b s x).
Proof.
  intros b s x B R. destruct (div_room b s x B R) as [D M]. unfold In. rewrite getA_ix by lia. cbn [bind].
  eexists. split; [reflexivity|]. apply inword_mem; auto.
Qed.
Print Assumptions C70_in.
(** A number the array has no room for traps ... *)
Theorem C70_out_of_range : forall b s x, 0 < b -> zlen s * b <= x ->
  Incl b s x = Trap (-2) /\ Excl b s x = Trap (-2) /\ In b s x = Trap (-2).
Proof.
  intros b s x B X. assert (zlen s <= x / b) by (apply Z.div_le_lower_bound; lia).
  assert (G : getA s (x / b) = Trap (-2)).
  { unfold getA. unfold zlen in *. rewrite (proj2 (Z.ltb_ge _ _)) by lia. reflexivity. }
  unfold Incl, Excl, In. rewrite G. auto.
Qed.
Print Assumptions C70_out_of_range.
(** ... but a negative number is not noticed: the word before the array is used. *)
Theorem C70_negative_refuted : forall b s x, 0 < b -> x < 0 -> Incl b s x = UB /\ Excl b s x = UB /\ In b s x = UB.
Proof.
  intros b s x B X. assert (x / b < 0) by (apply Z.div_lt_upper_bound; lia).
  assert (G : getA s (x / b) = UB).
  { unfold getA. rewrite (proj2 (Z.ltb_lt _ (Z.of_nat _))) by lia. rewrite (proj2 (Z.ltb_lt _ 0)) by lia. reflexivity. }
  unfold Incl, Excl, In. rewrite G. auto.
Qed.
Print Assumptions C70_negative_refuted.
(** Every character has its place in a CharSet. *)
Theorem C70_characters : forall s ch, zlen s = 8 -> words 32 s -> 0 <= ch < 256 ->
  (exists r, CharIn 32 s ch = Ok r /\ (r = true <-> mem 32 s ch)) /\
  (exists s', InclChar 32 s ch = Ok s' /\ forall y, mem 32 s' y <-> mem 32 s y \/ y = ch) /\
  (exists s', ExclChar 32 s ch = Ok s' /\ forall y, mem 32 s' y <-> mem 32 s y /\ y <> ch).
Proof.
  intros s ch L W C. assert (R : room 32 s ch) by (unfold room; lia). split; [|split].
  - apply C70_in; [lia|exact R].
  - destruct (C70_incl 32 s ch) as (s' & E & _ & _ & M); auto; [lia|]. exists s'. auto.
  - destruct (C70_excl 32 s ch) as (s' & E & _ & _ & M); auto; [lia|]. exists s'. auto.
Qed.
Print Assumptions C70_characters.

(** * Whole sets *)
Lemma fill_loop_ok : forall n b v fuel i s, widths n b -> 0 <= i -> zlen s <= max_int n -> zlen s - i <= Z.of_nat fuel ->
  exists s', fill_loop fuel n v i s = Ok s' /\ zlen s' = zlen s /\
    forall j, 0 <= j -> ix s' j = if (i <=? j) && (j <? zlen s) then v else ix s j.
Proof.
  intros n b v fuel. induction fuel as [|fuel IH]; intros i s W I L F; cbn [fill_loop]; destruct (i <? zlen s) eqn:E.
  - apply Z.ltb_lt in E. lia.
  - apply Z.ltb_ge in E. exists s. split; [reflexivity|]. split; [reflexivity|]. intros j J.
    replace ((i <=? j) && (j <? zlen s)) with false by lia. reflexivity.
  - apply Z.ltb_lt in E. rewrite setA_ix by lia. cbn [bind]. rewrite (inc_ok n b) by (auto; lia). cbn [bind].
    set (s1 := set_nth (Z.to_nat i) v s). assert (L1 : zlen s1 = zlen s) by (unfold s1, zlen; rewrite set_nth_length; reflexivity).
    destruct (IH (i + 1) s1 W) as (s' & E1 & E2 & E3); [lia|lia|lia|].
    exists s'. split; [exact E1|]. split; [lia|]. intros j J. rewrite E3, L1 by lia. unfold s1. rewrite ix_set by lia.
    destruct (j =? i) eqn:Q; [apply Z.eqb_eq in Q; subst j; replace ((i + 1 <=? i) && _) with false by lia;
      replace ((i <=? i) && _) with true by lia; reflexivity|].
    apply Z.eqb_neq in Q. replace ((i <=? j) && (j <? zlen s)) with ((i + 1 <=? j) && (j <? zlen s)) by lia. reflexivity.
  - apply Z.ltb_ge in E. exists s. split; [reflexivity|]. split; [reflexivity|]. intros j J.
    replace ((i <=? j) && (j <? zlen s)) with false by lia. reflexivity.
Qed.
(** Clear and InitSet give the empty set, Fill the set of all numbers there is room for. *)
Theorem C70_clear : forall n b s, widths n b -> zlen s <= max_int n ->
  exists s', Clear n s = Ok s' /\ InitSet n s = Ok s' /\ words b s' /\ zlen s' = zlen s /\ forall x, ~ mem b s' x.
Proof.
  intros n b s W L. destruct (fill_loop_ok n b 0 (length s) 0 s W) as (s' & E & LS & X); [lia|lia|unfold zlen; lia|].
  pose proof (widths_pos n b W) as [B _].
  exists s'. split; [exact E|]. split; [exact E|]. split; [|split; [exact LS|]].
  - apply ix_words. intros j J. rewrite X by lia. replace ((0 <=? j) && (j <? zlen s)) with true by lia.
    unfold in_uint. pose proof (Z.pow_pos_nonneg 2 b). lia.
  - intros x (R & M). rewrite LS in R. destruct (div_room b s x B R) as [D _]. rewrite X in M by lia.
    replace ((0 <=? x / b) && (x / b <? zlen s)) with true in M by lia. rewrite Z.bits_0 in M. discriminate.
Qed.
Print Assumptions C70_clear.
Theorem C70_fill : forall n b s, widths n b -> zlen s <= max_int n ->
  exists s', Fill n b s = Ok s' /\ words b s' /\ zlen s' = zlen s /\ forall x, mem b s' x <-> room b s x.
Proof.
  intros n b s W L. pose proof (widths_pos n b W) as [B _]. unfold Fill.
  destruct (SETRNG_bits 0 (b - 1) b) as (v & -> & V & BT); [lia|lia|lia|]. cbn [bind].
  destruct (fill_loop_ok n b v (length s) 0 s W) as (s' & E & LS & X); [lia|lia|unfold zlen; lia|].
  exists s'. split; [exact E|]. split; [|split; [exact LS|]].
  - apply ix_words. intros j J. rewrite X by lia. replace ((0 <=? j) && (j <? zlen s)) with true by lia. exact V.
  - intros x. unfold mem, room. rewrite LS. split; [tauto|]. intros R. split; [exact R|].
    destruct (div_room b s x B R) as [D M]. rewrite X by lia.
    replace ((0 <=? x / b) && (x / b <? zlen s)) with true by lia. rewrite BT by lia. lia.
Qed.
Print Assumptions C70_fill.
Lemma compl_loop_ok : forall n b fuel i s, widths n b -> 0 <= i -> zlen s <= max_int n -> zlen s - i <= Z.of_nat fuel ->
  exists s', compl_loop fuel n b i s = Ok s' /\ zlen s' = zlen s /\
    forall j, 0 <= j -> ix s' j = if (i <=? j) && (j <? zlen s) then set_compl b (ix s j) else ix s j.
Proof.
  intros n b fuel. induction fuel as [|fuel IH]; intros i s W I L F; cbn [compl_loop]; destruct (i <? zlen s) eqn:E.
  - apply Z.ltb_lt in E. lia.
  - apply Z.ltb_ge in E. exists s. split; [reflexivity|]. split; [reflexivity|]. intros j J.
    replace ((i <=? j) && (j <? zlen s)) with false by lia. reflexivity.
  - apply Z.ltb_lt in E. rewrite getA_ix by lia. cbn [bind]. rewrite setA_ix by lia. cbn [bind].
    rewrite (inc_ok n b) by (auto; lia). cbn [bind].
    set (s1 := set_nth (Z.to_nat i) (set_compl b (ix s i)) s). assert (L1 : zlen s1 = zlen s) by (unfold s1, zlen; rewrite set_nth_length; reflexivity).
    destruct (IH (i + 1) s1 W) as (s' & E1 & E2 & E3); [lia|lia|lia|].
    exists s'. split; [exact E1|]. split; [lia|]. intros j J. rewrite E3, L1 by lia. unfold s1. rewrite ix_set by lia.
    destruct (j =? i) eqn:Q; [apply Z.eqb_eq in Q; subst j; replace ((i + 1 <=? i) && _) with false by lia;
      replace ((i <=? i) && _) with true by lia; reflexivity|].
    apply Z.eqb_neq in Q. replace ((i <=? j) && (j <? zlen s)) with ((i + 1 <=? j) && (j <? zlen s)) by lia. reflexivity.
  - apply Z.ltb_ge in E. exists s. split; [reflexivity|]. split; [reflexivity|]. intros j J.
    replace ((i <=? j) && (j <? zlen s)) with false by lia. reflexivity.
Qed.
Theorem C70_complement : forall n b s, widths n b -> zlen s <= max_int n -> words b s ->
  exists s', Complement n b s = Ok s' /\ words b s' /\ zlen s' = zlen s /\ forall x, mem b s' x <-> room b s x /\ ~ mem b s x.
Proof.
  intros n b s W L WS. pose proof (widths_pos n b W) as [B _].
  destruct (compl_loop_ok n b (length s) 0 s W) as (s' & E & LS & X); [lia|lia|unfold zlen; lia|].
  exists s'. split; [exact E|]. split; [|split; [exact LS|]].
  - apply ix_words. intros j J. rewrite X by lia. replace ((0 <=? j) && (j <? zlen s)) with true by lia.
    apply wrap_u_range. lia.
  - intros x. unfold mem, room. rewrite LS.
    assert (H : 0 <= x < zlen s * b -> Z.testbit (ix s' (x / b)) (x mod b) = negb (Z.testbit (ix s (x / b)) (x mod b))).
    { intros R. destruct (div_room b s x B R) as [D M]. rewrite X by lia.
      replace ((0 <=? x / b) && (x / b <? zlen s)) with true by lia. rewrite set_compl_bits by lia.
      replace (x mod b <? b) with true by lia. reflexivity. }
    split.
    + intros (R & T). rewrite H in T by exact R. split; [exact R|]. intros (_ & T'). rewrite T' in T. discriminate.
    + intros (R & T). split; [exact R|]. rewrite H by exact R. destruct (Z.testbit (ix s (x / b)) (x mod b)) eqn:Q; [|reflexivity]. tauto.
Qed.
Print Assumptions C70_complement.

(** * Tests *)
Lemma test_loop_ok : forall n b bad s1 s2 fuel i, widths n b -> 0 <= i -> zlen s1 <= max_int n -> zlen s1 <= zlen s2 ->
  zlen s1 - i <= Z.of_nat fuel ->
  exists r, test_loop fuel n bad i s1 s2 = Ok r /\ (r = true <-> forall j, i <= j < zlen s1 -> bad (ix s1 j) (ix s2 j) = false).
Proof.
  intros n b bad s1 s2 fuel. induction fuel as [|fuel IH]; intros i W I L L2 F; cbn [test_loop]; destruct (i <? zlen s1) eqn:E.
  - apply Z.ltb_lt in E. lia.
  - apply Z.ltb_ge in E. exists true. split; [reflexivity|]. split; [|reflexivity]. intros _ j J. lia.
  - apply Z.ltb_lt in E. rewrite !getA_ix by lia. cbn [bind]. destruct (bad (ix s1 i) (ix s2 i)) eqn:Q.
    + exists false. split; [reflexivity|]. split; [discriminate|]. intros H. rewrite H in Q by lia. discriminate.
    + rewrite (inc_ok n b) by (auto; lia). cbn [bind]. destruct (IH (i + 1) W) as (r & E1 & E2); try lia.
      exists r. split; [exact E1|]. rewrite E2. split; intros H j J; [|apply H; lia].
      destruct (Z.eq_dec j i) as [->|]; [exact Q|apply H; lia].
  - apply Z.ltb_ge in E. exists true. split; [reflexivity|]. split; [|reflexivity]. intros _ j J. lia.
Qed.
(** A relation of words is one of their elements. *)
Lemma by_words : forall b s (P : Z -> Prop) (Q : Z -> Z -> Prop), 0 < b ->
  (forall j, 0 <= j < zlen s -> (P j <-> forall k, 0 <= k < b -> Q j k)) ->
  ((forall j, 0 <= j < zlen s -> P j) <-> forall x, room b s x -> Q (x / b) (x mod b)).
Proof.
  intros b s P Q B H. split.
  - intros A x R. destruct (div_room b s x B R) as [D M]. apply (proj1 (H (x / b) D)); auto.
  - intros A j J. apply H; [exact J|]. intros k K. destruct (room_of b s j k J K) as (R & D & M). specialize (A _ R).
    rewrite D, M in A. exact A.
Qed.
Lemma word_eq : forall b u v, 0 < b -> in_uint b u -> in_uint b v ->
  (u = v <-> forall k, 0 <= k < b -> Z.testbit u k = Z.testbit v k).
Proof.
  intros b u v B U V. split; [intros -> k K; reflexivity|]. intros H. apply Z.bits_inj'. intros k K.
  destruct (Z_lt_ge_dec k b); [apply H; lia|].
  rewrite (uint_bits_high b u k), (uint_bits_high b v k) by (auto; lia). reflexivity.
Qed.
Lemma mem_bit : forall b s x, room b s x -> (mem b s x <-> Z.testbit (ix s (x / b)) (x mod b) = true).
Proof. unfold mem, room. intros. tauto. Qed.
Lemma mem_le : forall b s1 s2 x, 0 < b -> zlen s1 <= zlen s2 -> room b s1 x -> room b s2 x.
Proof. unfold room. intros. nia. Qed.

(** Inclusion, equality and disjointness, also for a second array that is longer. *)
Theorem C70_includes : forall n b s1 s2, widths n b -> words b s1 -> words b s2 -> zlen s1 <= max_int n -> zlen s1 <= zlen s2 ->
  exists r, Includes n s1 s2 = Ok r /\ (r = true <-> forall x, room b s1 x -> mem b s2 x -> mem b s1 x).
Proof.
  intros n b s1 s2 W W1 W2 L L2. pose proof (widths_pos n b W) as [B _].
  destruct (test_loop_ok n b (fun u v => negb (set_plus u v =? u)) s1 s2 (length s1) 0 W) as (r & E & H); [lia|lia|lia|unfold zlen; lia|].
  exists r. split; [exact E|]. rewrite H.
  rewrite (by_words b s1 _ (fun j k => Z.testbit (ix s2 j) k = true -> Z.testbit (ix s1 j) k = true) B).
  - split; intros A x R; specialize (A x R); rewrite (mem_bit b s1), (mem_bit b s2) in * by (eauto using mem_le); exact A.
  - intros j J. pose proof (words_ix b s1 j W1 J) as U. assert (V : in_uint b (ix s2 j)) by (apply words_ix; [exact W2|lia]).
    rewrite negb_false_iff, Z.eqb_eq, (word_eq b) by (auto; apply (set_ops_range b); auto).
    split; intros A k K; specialize (A k K).
    + intros T. rewrite (proj1 (set_ops_bits b _ _ k B U V ltac:(lia))) in A. rewrite T, orb_true_r in A. auto.
    + rewrite (proj1 (set_ops_bits b _ _ k B U V ltac:(lia))). destruct (Z.testbit (ix s2 j) k); [rewrite A by auto; reflexivity|apply orb_false_r].
Qed.
Print Assumptions C70_includes.
Theorem C70_equal : forall n b s1 s2, widths n b -> words b s1 -> words b s2 -> zlen s1 <= max_int n -> zlen s1 <= zlen s2 ->
  exists r, Equal n s1 s2 = Ok r /\ (r = true <-> forall x, room b s1 x -> (mem b s1 x <-> mem b s2 x)).
Proof.
  intros n b s1 s2 W W1 W2 L L2. pose proof (widths_pos n b W) as [B _].
  destruct (test_loop_ok n b (fun u v => negb (u =? v)) s1 s2 (length s1) 0 W) as (r & E & H); [lia|lia|lia|unfold zlen; lia|].
  exists r. split; [exact E|]. rewrite H.
  rewrite (by_words b s1 _ (fun j k => Z.testbit (ix s1 j) k = Z.testbit (ix s2 j) k) B).
  - split; intros A x R; specialize (A x R); rewrite (mem_bit b s1), (mem_bit b s2) in * by (eauto using mem_le).
    + rewrite A. tauto.
    + apply eq_true_iff_eq. exact A.
  - intros j J. pose proof (words_ix b s1 j W1 J) as U. assert (V : in_uint b (ix s2 j)) by (apply words_ix; [exact W2|lia]).
    rewrite negb_false_iff, Z.eqb_eq. apply word_eq; auto.
Qed.
Print Assumptions C70_equal.
Theorem C70_different : forall n b s1 s2, widths n b -> words b s1 -> words b s2 -> zlen s1 <= max_int n -> zlen s1 <= zlen s2 ->
  exists r, Different n s1 s2 = Ok r /\ (r = true <-> forall x, ~ (mem b s1 x /\ mem b s2 x)).
Proof.
  intros n b s1 s2 W W1 W2 L L2. pose proof (widths_pos n b W) as [B _].
  destruct (test_loop_ok n b (fun u v => negb (is_empty (set_times u v))) s1 s2 (length s1) 0 W) as (r & E & H); [lia|lia|lia|unfold zlen; lia|].
  exists r. split; [exact E|]. rewrite H.
  rewrite (by_words b s1 _ (fun j k => ~ (Z.testbit (ix s1 j) k = true /\ Z.testbit (ix s2 j) k = true)) B).
  - split.
    + intros A x (M1 & M2). assert (R : room b s1 x) by (destruct M1; assumption). apply (A x R).
      rewrite (mem_bit b s1), (mem_bit b s2) in * by (eauto using mem_le). auto.
    + intros A x R. specialize (A x). rewrite (mem_bit b s1), (mem_bit b s2) in * by (eauto using mem_le). exact A.
  - intros j J. pose proof (words_ix b s1 j W1 J) as U. assert (V : in_uint b (ix s2 j)) by (apply words_ix; [exact W2|lia]).
    unfold is_empty. rewrite negb_false_iff, Z.eqb_eq, (word_eq b); auto; [|apply (set_ops_range b); auto|unfold in_uint; pose proof (Z.pow_pos_nonneg 2 b); lia].
    split; intros A k K; specialize (A k K); pose proof (set_ops_bits b _ _ k B U V ltac:(lia)) as (_ & _ & T & _);
      rewrite Z.bits_0, T in *; destruct (Z.testbit (ix s1 j) k), (Z.testbit (ix s2 j) k); cbn in *; intuition congruence.
Qed.
Print Assumptions C70_different.

Lemma empty_loop_ok : forall n b s fuel i, widths n b -> 0 <= i -> zlen s <= max_int n -> zlen s - i <= Z.of_nat fuel ->
  exists r, empty_loop fuel n i s = Ok r /\ (r = true <-> forall j, i <= j < zlen s -> ix s j = 0).
Proof.
  intros n b s fuel. induction fuel as [|fuel IH]; intros i W I L F; cbn [empty_loop]; destruct (i <? zlen s) eqn:E.
  - apply Z.ltb_lt in E. lia.
  - apply Z.ltb_ge in E. exists true. split; [reflexivity|]. split; [|reflexivity]. intros _ j J. lia.
  - apply Z.ltb_lt in E. rewrite !getA_ix by lia. cbn [bind]. unfold is_empty. destruct (ix s i =? 0) eqn:Q; cbn [negb].
    + apply Z.eqb_eq in Q. rewrite (inc_ok n b) by (auto; lia). cbn [bind]. destruct (IH (i + 1) W) as (r & E1 & E2); try lia.
      exists r. split; [exact E1|]. rewrite E2. split; intros H j J; [|apply H; lia].
      destruct (Z.eq_dec j i) as [->|]; [exact Q|apply H; lia].
    + apply Z.eqb_neq in Q. exists false. split; [reflexivity|]. split; [discriminate|]. intros H. rewrite H in Q by lia. congruence.
  - apply Z.ltb_ge in E. exists true. split; [reflexivity|]. split; [|reflexivity]. intros _ j J. lia.
Qed.
Lemma zero_word : forall b u, 0 < b -> in_uint b u -> (u = 0 <-> forall k, 0 <= k < b -> Z.testbit u k = false).
Proof.
  intros b u B U. rewrite (word_eq b u 0 B U) by (unfold in_uint; pose proof (Z.pow_pos_nonneg 2 b); lia).
  split; intros H k K; specialize (H k K); rewrite Z.bits_0 in *; auto.
Qed.
Theorem C70_empty : forall n b s, widths n b -> words b s -> zlen s <= max_int n ->
  exists r, Empty n s = Ok r /\ (r = true <-> forall x, ~ mem b s x).
Proof.
  intros n b s W WS L. pose proof (widths_pos n b W) as [B _].
  destruct (empty_loop_ok n b s (length s) 0 W) as (r & E & H); [lia|lia|unfold zlen; lia|].
  exists r. split; [exact E|]. rewrite H.
  rewrite (by_words b s _ (fun j k => Z.testbit (ix s j) k = false) B).
  - split.
    + intros A x (R & T). rewrite A in T by exact R. discriminate.
    + intros A x R. specialize (A x). rewrite (mem_bit b s) in A by exact R. destruct (Z.testbit _ _); congruence.
  - intros j J. apply zero_word; [exact B|]. apply words_ix; auto.
Qed.
Print Assumptions C70_empty.
(** A first array that is longer than the second traps, unless an earlier word decides. *)
Theorem C70_shorter_operand : forall n b s1 s2, widths n b -> zlen s1 <= max_int n -> zlen s2 < zlen s1 ->
  (forall j, 0 <= j < zlen s2 -> ix s1 j = ix s2 j) -> Equal n s1 s2 = Trap (-2).
Proof.
  intros n b s1 s2 W L L2 H. unfold Equal.
  assert (G : forall fuel i, 0 <= i <= zlen s2 -> zlen s1 - i <= Z.of_nat fuel ->
    test_loop fuel n (fun u v => negb (u =? v)) i s1 s2 = Trap (-2)).
  { induction fuel as [|fuel IH]; intros i I F; [lia|]. cbn [test_loop]. rewrite (proj2 (Z.ltb_lt i _)) by lia.
    rewrite (getA_ix s1) by lia. cbn [bind]. destruct (Z.eq_dec i (zlen s2)) as [->|NE].
    - unfold getA. fold (zlen s2). rewrite Z.ltb_irrefl. reflexivity.
    - rewrite getA_ix by lia. cbn [bind]. rewrite H, Z.eqb_refl by lia. cbn [negb].
      rewrite (inc_ok n b) by (auto; lia). cbn [bind]. apply IH; lia. }
  apply G; [pose proof (zlen_nonneg _ s2); lia|unfold zlen; lia].
Qed.
Print Assumptions C70_shorter_operand.

(** ulmSets compares sets of different sizes. *)
Lemma both_loop_ok : forall n b bad s1 s2 fuel i, widths n b -> 0 <= i <= Z.min (zlen s1) (zlen s2) -> zlen s1 <= max_int n ->
  zlen s1 - i <= Z.of_nat fuel ->
  exists r, both_loop fuel n bad i s1 s2 = Ok r /\
    match r with
    | Some j => j = Z.min (zlen s1) (zlen s2) /\ forall j, i <= j < Z.min (zlen s1) (zlen s2) -> bad (ix s1 j) (ix s2 j) = false
    | None => exists j, i <= j < Z.min (zlen s1) (zlen s2) /\ bad (ix s1 j) (ix s2 j) = true
    end.
Proof.
  intros n b bad s1 s2 fuel. induction fuel as [|fuel IH]; intros i W I L F; cbn [both_loop];
    destruct ((i <? zlen s1) && (i <? zlen s2)) eqn:E.
  - lia.
  - exists (Some i). split; [reflexivity|]. split; [lia|]. intros j J. lia.
  - apply andb_prop in E. destruct E as [E E']. apply Z.ltb_lt in E, E'. rewrite !getA_ix by lia. cbn [bind].
    destruct (bad (ix s1 i) (ix s2 i)) eqn:Q.
    + exists None. split; [reflexivity|]. exists i. split; [lia|exact Q].
    + rewrite (inc_ok n b) by (auto; lia). cbn [bind]. destruct (IH (i + 1) W) as (r & E1 & E2); try lia.
      exists r. split; [exact E1|]. destruct r as [j|].
      * destruct E2 as [-> E2]. split; [reflexivity|]. intros j J. destruct (Z.eq_dec j i) as [->|]; [exact Q|apply E2; lia].
      * destruct E2 as (j & J & E2). exists j. split; [lia|exact E2].
  - exists (Some i). split; [reflexivity|]. split; [lia|]. intros j J. lia.
Qed.
Lemma ix_beyond : forall s j, zlen s <= j -> ix s j = 0.
Proof. intros s j H. unfold ix. apply nth_overflow. unfold zlen in H. lia. Qed.
(** Membership without the bound: beyond the array the words are 0. *)
Lemma mem_any : forall b s x, 0 < b -> (mem b s x <-> 0 <= x /\ Z.testbit (ix s (x / b)) (x mod b) = true).
Proof.
  intros b s x B. unfold mem. split; [tauto|]. intros (X & T). split; [|exact T]. split; [exact X|].
  destruct (Z_lt_ge_dec x (zlen s * b)) as [H|H]; [exact H|]. rewrite ix_beyond, Z.bits_0 in T; [discriminate|].
  apply Z.div_le_lower_bound; lia.
Qed.
Lemma words_any : forall b s j, 0 < b -> words b s -> 0 <= j -> in_uint b (ix s j).
Proof.
  intros b s j B W J. destruct (Z_lt_ge_dec j (zlen s)) as [H|H]; [apply words_ix; auto; lia|].
  rewrite ix_beyond by lia. unfold in_uint. pose proof (Z.pow_pos_nonneg 2 b). lia.
Qed.
Theorem C70_equal_any_size : forall n b s1 s2, widths n b -> words b s1 -> words b s2 ->
  zlen s1 <= max_int n -> zlen s2 <= max_int n ->
  exists r, uEqual n s1 s2 = Ok r /\ (r = true <-> forall x, mem b s1 x <-> mem b s2 x).
Proof.
  intros n b s1 s2 W W1 W2 L1 L2. pose proof (widths_pos n b W) as [B _].
  pose proof (zlen_nonneg _ s1) as N1. pose proof (zlen_nonneg _ s2) as N2.
  assert (X : (forall x, mem b s1 x <-> mem b s2 x) <-> forall j, 0 <= j -> ix s1 j = ix s2 j).
  { split.
    - intros H j J. apply (word_eq b); try (apply words_any; auto); auto. intros k K. specialize (H (j * b + k)).
      rewrite !mem_any in H by exact B.
      assert (D : (j * b + k) / b = j) by (symmetry; apply Z.div_unique with (r := k); lia).
      assert (M : (j * b + k) mod b = k) by (symmetry; apply Z.mod_unique with (q := j); lia).
      rewrite D, M in H. apply eq_true_iff_eq. assert (0 <= j * b + k) by nia. tauto.
    - intros H x. rewrite !mem_any by exact B. split; intros (P & T); (split; [exact P|]); (rewrite H in * || rewrite <- H in *); auto; apply Z.div_pos; lia. }
  unfold uEqual.
  destruct (both_loop_ok n b (fun u v => negb (u =? v)) s1 s2 (length s1) 0 W) as (o & E & H); [lia|lia|unfold zlen; lia|].
  rewrite E. cbn [bind]. destruct o as [i|].
  - destruct H as [I H]. destruct (empty_loop_ok n b s1 (length s1) i W) as (e & E1 & H1); [lia|lia|unfold zlen in *; lia|].
    rewrite E1. cbn [bind]. destruct e.
    + destruct (empty_loop_ok n b s2 (length s2) (if i <? zlen s1 then zlen s1 else i) W) as (r & E2 & H2);
        [destruct (i <? zlen s1); lia|lia|destruct (i <? zlen s1); unfold zlen in *; lia|].
      exists r. split; [exact E2|]. rewrite H2, X. pose proof (proj1 H1 eq_refl) as Z1. split.
      * intros A j J. destruct (Z_lt_ge_dec j i) as [J1|J1].
        { specialize (H j ltac:(lia)). apply negb_false_iff, Z.eqb_eq in H. exact H. }
        destruct (Z_lt_ge_dec j (zlen s1)) as [J2|J2].
        { rewrite Z1 by lia. rewrite (ix_beyond s2) by lia. reflexivity. }
        rewrite (ix_beyond s1) by lia. destruct (Z_lt_ge_dec j (zlen s2)) as [J3|J3]; [|rewrite ix_beyond by lia; reflexivity].
        symmetry. apply A. destruct (i <? zlen s1) eqn:Q; lia.
      * intros A j J. assert (zlen s1 <= j) by (destruct (i <? zlen s1) eqn:Q; lia).
        rewrite <- A by lia. apply ix_beyond. lia.
    + exists false. split; [reflexivity|]. rewrite X. split; [discriminate|]. intros A. apply H1. intros j J.
      rewrite A by lia. apply ix_beyond. lia.
  - exists false. split; [reflexivity|]. rewrite X. split; [discriminate|]. intros A. destruct H as (j & J & H).
    rewrite A, Z.eqb_refl in H by lia. discriminate.
Qed.
Print Assumptions C70_equal_any_size.
Theorem C70_subset_any_size : forall n b s1 s2, widths n b -> words b s1 -> words b s2 -> zlen s1 <= max_int n ->
  exists r, uSubset n b s1 s2 = Ok r /\ (r = true <-> forall x, mem b s1 x -> mem b s2 x).
Proof.
  intros n b s1 s2 W W1 W2 L1. pose proof (widths_pos n b W) as [B _].
  pose proof (zlen_nonneg _ s1) as N1. pose proof (zlen_nonneg _ s2) as N2.
  set (P := fun j => forall k, 0 <= k < b -> Z.testbit (ix s1 j) k = true -> Z.testbit (ix s2 j) k = true).
  assert (X : (forall x, mem b s1 x -> mem b s2 x) <-> forall j, 0 <= j -> P j).
  { split.
    - intros H j J k K. specialize (H (j * b + k)).
      rewrite !mem_any in H by exact B.
      assert (D : (j * b + k) / b = j) by (symmetry; apply Z.div_unique with (r := k); lia).
      assert (M : (j * b + k) mod b = k) by (symmetry; apply Z.mod_unique with (q := j); lia).
      rewrite D, M in H. assert (0 <= j * b + k) by nia. tauto.
    - intros H x. rewrite !mem_any by exact B. intros (Q & T). split; [exact Q|]. apply H; auto; [apply Z.div_pos; lia|apply Z.mod_pos_bound; lia]. }
  assert (BAD : forall j, 0 <= j -> (negb (is_empty (set_minus b (ix s1 j) (ix s2 j))) = false <-> P j)).
  { intros j J. pose proof (words_any b s1 j B W1 J) as U. pose proof (words_any b s2 j B W2 J) as V.
    unfold is_empty. rewrite negb_false_iff, Z.eqb_eq, (zero_word b) by (auto; exact (proj1 (proj2 (set_ops_range b _ _ B U V)))).
    unfold P. split; intros A k K; specialize (A k K); pose proof (set_ops_bits b _ _ k B U V ltac:(lia)) as (_ & T & _);
      rewrite T in *; destruct (Z.testbit (ix s1 j) k), (Z.testbit (ix s2 j) k); cbn in *; intuition congruence. }
  unfold uSubset.
  destruct (both_loop_ok n b (fun u v => negb (is_empty (set_minus b u v))) s1 s2 (length s1) 0 W) as (o & E & H); [lia|lia|unfold zlen; lia|].
  rewrite E. cbn [bind]. destruct o as [i|].
  - destruct H as [I H]. destruct (empty_loop_ok n b s1 (length s1) i W) as (e & E1 & H1); [lia|lia|unfold zlen in *; lia|].
    exists e. split; [exact E1|]. rewrite H1, X. split.
    + intros A j J. destruct (Z_lt_ge_dec j i) as [J1|J1].
      { apply BAD; [exact J|]. apply H. lia. }
      assert (Z0 : ix s1 j = 0).
      { destruct (Z_lt_ge_dec j (zlen s1)) as [J2|J2]; [apply A; lia|apply ix_beyond; lia]. }
      intros k K. rewrite Z0, Z.bits_0. discriminate.
    + intros A j J. apply (zero_word b); [exact B|apply words_any; auto; lia|]. intros k K. specialize (A j ltac:(lia) k K).
      rewrite (ix_beyond s2), Z.bits_0 in A by lia. destruct (Z.testbit (ix s1 j) k); [symmetry; apply A; reflexivity|reflexivity].
  - exists false. split; [reflexivity|]. rewrite X. split; [discriminate|]. intros A. destruct H as (j & J & H).
    rewrite (proj2 (BAD j ltac:(lia))) in H by (apply A; lia). discriminate.
Qed.
Print Assumptions C70_subset_any_size.

(** * Operations on two sets *)
Lemma op_loop_ok : forall n b f x1 x2 x3 fuel i st, widths n b -> 0 <= i -> zlen (st x1) <= max_int n ->
  zlen (st x1) <= zlen (st x2) -> zlen (st x1) <= zlen (st x3) -> zlen (st x1) - i <= Z.of_nat fuel ->
  exists st', op_loop fuel n f i st x1 x2 x3 = Ok st' /\ (forall y, y <> x3 -> st' y = st y) /\ zlen (st' x3) = zlen (st x3) /\
    forall j, 0 <= j -> ix (st' x3) j = if (i <=? j) && (j <? zlen (st x1)) then f (ix (st x1) j) (ix (st x2) j) else ix (st x3) j.
Proof.
  intros n b f x1 x2 x3 fuel.
  assert (END : forall i (st : nat -> list Z), zlen (st x1) <= i ->
    exists st', Ok st = Ok st' /\ (forall y, y <> x3 -> st' y = st y) /\ zlen (st' x3) = zlen (st x3) /\
    forall j, 0 <= j -> ix (st' x3) j = if (i <=? j) && (j <? zlen (st x1)) then f (ix (st x1) j) (ix (st x2) j) else ix (st x3) j).
  { intros i st E. exists st. split; [reflexivity|]. split; [auto|]. split; [reflexivity|]. intros j J.
    replace ((i <=? j) && (j <? zlen (st x1))) with false by lia. reflexivity. }
  induction fuel as [|fuel IH]; intros i st W I L L2 L3 F; cbn [op_loop]; destruct (i <? zlen (st x1)) eqn:E;
    try (apply Z.ltb_ge in E; apply END; exact E); apply Z.ltb_lt in E; [lia|].
  rewrite !getA_ix by lia. cbn [bind]. rewrite setA_ix by lia. cbn [bind]. rewrite (inc_ok n b) by (auto; lia). cbn [bind].
  set (v := f (ix (st x1) i) (ix (st x2) i)). set (st1 := upd st x3 (set_nth (Z.to_nat i) v (st x3))).
  assert (S3 : st1 x3 = set_nth (Z.to_nat i) v (st x3)) by (unfold st1, upd; rewrite Nat.eqb_refl; reflexivity).
  assert (SO : forall y, y <> x3 -> st1 y = st y).
  { intros y Y. unfold st1, upd. apply Nat.eqb_neq in Y. rewrite Y. reflexivity. }
  assert (SL : forall y, zlen (st1 y) = zlen (st y)).
  { intros y. destruct (Nat.eq_dec y x3) as [->|Y]; [rewrite S3; unfold zlen; rewrite set_nth_length; reflexivity|rewrite SO by exact Y; reflexivity]. }
  assert (SI : forall y j, 0 <= j -> ix (st1 y) j = if (Nat.eqb y x3) && (j =? i) then v else ix (st y) j).
  { intros y j J. destruct (Nat.eq_dec y x3) as [->|Y].
    - rewrite S3, ix_set by lia. rewrite Nat.eqb_refl. reflexivity.
    - rewrite SO by exact Y. apply Nat.eqb_neq in Y. rewrite Y. reflexivity. }
  destruct (IH (i + 1) st1 W) as (st' & E1 & E2 & E3 & E4); [lia|rewrite SL; lia|rewrite !SL; lia|rewrite !SL; lia|rewrite SL; lia|].
  exists st'. split; [exact E1|]. split; [intros y Y; rewrite E2, SO by exact Y; reflexivity|]. split; [rewrite E3; apply SL|].
  intros j J. rewrite E4, SL by exact J. rewrite !SI by exact J. rewrite Nat.eqb_refl. cbn [andb].
  destruct (j =? i) eqn:Q.
  - apply Z.eqb_eq in Q. subst j. replace ((i + 1 <=? i) && (i <? zlen (st x1))) with false by lia.
    replace ((i <=? i) && (i <? zlen (st x1))) with true by lia. reflexivity.
  - rewrite !andb_false_r. apply Z.eqb_neq in Q.
    replace ((i <=? j) && (j <? zlen (st x1))) with ((i + 1 <=? j) && (j <? zlen (st x1))) by lia. reflexivity.
Qed.
(** The effect on the elements of a word function that is one on bits. *)
Definition bitwise (b : Z) (f : Z -> Z -> Z) (g : bool -> bool -> bool) : Prop :=
  forall u v, in_uint b u -> in_uint b v ->
  in_uint b (f u v) /\ forall k, 0 <= k < b -> Z.testbit (f u v) k = g (Z.testbit u k) (Z.testbit v k).
Lemma bits_plus : forall b, 0 < b -> bitwise b set_plus orb.
Proof. intros b B u v U V. split; [apply (set_ops_range b); auto|]. intros k K. apply (set_ops_bits b); auto; lia. Qed.
Lemma bits_minus : forall b, 0 < b -> bitwise b (set_minus b) (fun p q => p && negb q).
Proof.
  intros b B u v U V. split; [exact (proj1 (proj2 (set_ops_range b _ _ B U V)))|]. intros k K.
  exact (proj1 (proj2 (set_ops_bits b _ _ k B U V ltac:(lia)))).
Qed.
Lemma bits_times : forall b, 0 < b -> bitwise b set_times andb.
Proof. intros b B u v U V. split; [apply (set_ops_range b); auto|]. intros k K. apply (set_ops_bits b); auto; lia. Qed.
Lemma bits_slash : forall b, 0 < b -> bitwise b set_slash xorb.
Proof. intros b B u v U V. split; [apply (set_ops_range b); auto|]. intros k K. apply (set_ops_bits b); auto; lia. Qed.

Lemma op_loop_mem : forall n b f g x1 x2 x3 st, widths n b -> bitwise b f g -> zlen (st x1) <= max_int n ->
  words b (st x1) -> words b (st x2) -> words b (st x3) ->
  zlen (st x1) <= zlen (st x2) -> zlen (st x1) <= zlen (st x3) ->
  exists st', op_loop (length (st x1)) n f 0 st x1 x2 x3 = Ok st' /\ (forall y, y <> x3 -> st' y = st y) /\
    words b (st' x3) /\ zlen (st' x3) = zlen (st x3) /\
    (forall x, room b (st x1) x ->
      (mem b (st' x3) x <-> g (Z.testbit (ix (st x1) (x / b)) (x mod b)) (Z.testbit (ix (st x2) (x / b)) (x mod b)) = true)) /\
    (forall x, ~ room b (st x1) x -> (mem b (st' x3) x <-> mem b (st x3) x)).
Proof.
  intros n b f g x1 x2 x3 st W G L W1 W2 W3 L2 L3. pose proof (widths_pos n b W) as [B _].
  destruct (op_loop_ok n b f x1 x2 x3 (length (st x1)) 0 st W) as (st' & E & O & LL & X); [lia|lia|lia|lia|unfold zlen; lia|].
  exists st'. split; [exact E|]. split; [exact O|]. split; [|split; [exact LL|split]].
  - apply ix_words. intros j J. rewrite X by lia. destruct ((0 <=? j) && (j <? zlen (st x1))) eqn:Q.
    + apply G; apply words_ix; auto; lia.
    + apply words_ix; auto. lia.
  - intros x R. destruct (div_room b (st x1) x B R) as [D M].
    rewrite (mem_bit b (st' x3)) by (unfold room in *; rewrite LL; nia).
    rewrite X by lia. replace ((0 <=? x / b) && (x / b <? zlen (st x1))) with true by lia.
    destruct (G (ix (st x1) (x / b)) (ix (st x2) (x / b))) as [_ GB]; [apply words_ix; auto; lia|apply words_ix; auto; lia|].
    rewrite GB by lia. tauto.
  - intros x R. rewrite !mem_any by exact B.
    assert (H : 0 <= x -> ix (st' x3) (x / b) = ix (st x3) (x / b)).
    { intros P. assert (D : zlen (st x1) <= x / b) by (apply Z.div_le_lower_bound; [lia|]; unfold room in R; nia).
      pose proof (zlen_nonneg _ (st x1)). rewrite X by lia. replace ((0 <=? x / b) && (x / b <? zlen (st x1))) with false by lia. reflexivity. }
    split; intros (P & T); (split; [exact P|]); [rewrite <- H|rewrite H]; auto.
Qed.
(** Union, difference and intersection, in place; the arrays may be the same ones.  Words beyond the length of the first array
    keep their value, and so do all other arrays. *)
Theorem C70_unite : forall n b st x1 x2, widths n b -> zlen (st x1) <= max_int n -> words b (st x1) -> words b (st x2) ->
  zlen (st x1) <= zlen (st x2) ->
  exists st', Unite n st x1 x2 = Ok st' /\ (forall y, y <> x1 -> st' y = st y) /\ words b (st' x1) /\ zlen (st' x1) = zlen (st x1) /\
    forall x, mem b (st' x1) x <-> room b (st x1) x /\ (mem b (st x1) x \/ mem b (st x2) x).
Proof.
  intros n b st x1 x2 W L W1 W2 L2. pose proof (widths_pos n b W) as [B _].
  destruct (op_loop_mem n b set_plus orb x1 x2 x1 st W (bits_plus b B) L W1 W2 W1 L2) as (st' & E & O & WW & LL & M & _); [lia|].
  exists st'. split; [exact E|]. split; [exact O|]. split; [exact WW|]. split; [exact LL|]. intros x. split.
  - intros H. assert (R : room b (st x1) x) by (destruct H as [H _]; unfold room; lia). split; [exact R|].
    apply (M x R) in H. rewrite (mem_bit b (st x1)), (mem_bit b (st x2)) by (eauto using mem_le). apply orb_true_iff. exact H.
  - intros (R & H). apply (M x R). rewrite (mem_bit b (st x1)), (mem_bit b (st x2)) in H by (eauto using mem_le). apply orb_true_iff. exact H.
Qed.
Print Assumptions C70_unite.
Theorem C70_differ : forall n b st x1 x2, widths n b -> zlen (st x1) <= max_int n -> words b (st x1) -> words b (st x2) ->
  zlen (st x1) <= zlen (st x2) ->
  exists st', Differ n b st x1 x2 = Ok st' /\ (forall y, y <> x1 -> st' y = st y) /\ words b (st' x1) /\ zlen (st' x1) = zlen (st x1) /\
    forall x, mem b (st' x1) x <-> mem b (st x1) x /\ ~ mem b (st x2) x.
Proof.
  intros n b st x1 x2 W L W1 W2 L2. pose proof (widths_pos n b W) as [B _].
  destruct (op_loop_mem n b (set_minus b) _ x1 x2 x1 st W (bits_minus b B) L W1 W2 W1 L2) as (st' & E & O & WW & LL & M & _); [lia|].
  exists st'. split; [exact E|]. split; [exact O|]. split; [exact WW|]. split; [exact LL|]. intros x. split.
  - intros H. assert (R : room b (st x1) x) by (destruct H as [H _]; unfold room; lia).
    apply (M x R) in H. rewrite (mem_bit b (st x1)), (mem_bit b (st x2)) by (eauto using mem_le).
    destruct (Z.testbit _ _), (Z.testbit _ _); cbn in H; intuition congruence.
  - intros (H1 & H2). assert (R : room b (st x1) x) by (destruct H1; assumption). apply (M x R).
    rewrite (mem_bit b (st x1)) in H1 by exact R. rewrite (mem_bit b (st x2)) in H2 by (eauto using mem_le). rewrite H1.
    destruct (Z.testbit (ix (st x2) _) _); [congruence|reflexivity].
Qed.
Print Assumptions C70_differ.
Theorem C70_intersect : forall n b st x1 x2 x3, widths n b -> zlen (st x1) <= max_int n ->
  words b (st x1) -> words b (st x2) -> words b (st x3) -> zlen (st x1) <= zlen (st x2) -> zlen (st x1) <= zlen (st x3) ->
  exists st', Intersect n st x1 x2 x3 = Ok st' /\ (forall y, y <> x3 -> st' y = st y) /\ words b (st' x3) /\ zlen (st' x3) = zlen (st x3) /\
    forall x, mem b (st' x3) x <-> (mem b (st x1) x /\ mem b (st x2) x) \/ (~ room b (st x1) x /\ mem b (st x3) x).
Proof.
  intros n b st x1 x2 x3 W L W1 W2 W3 L2 L3. pose proof (widths_pos n b W) as [B _].
  destruct (op_loop_mem n b set_times _ x1 x2 x3 st W (bits_times b B) L W1 W2 W3 L2 L3) as (st' & E & O & WW & LL & M & M2).
  exists st'. split; [exact E|]. split; [exact O|]. split; [exact WW|]. split; [exact LL|]. intros x.
  assert (D : room b (st x1) x \/ ~ room b (st x1) x) by (unfold room; lia).
  destruct D as [R|R].
  - rewrite (M x R), (mem_bit b (st x1)), (mem_bit b (st x2)) by (eauto using mem_le). rewrite andb_true_iff. tauto.
  - rewrite (M2 x R). split; [auto|]. intros [(H & _)|(_ & H)]; [|exact H]. destruct H as [H _]. contradiction.
Qed.
Print Assumptions C70_intersect.

Lemma val_loop_ok : forall n b f s1 s2 fuel i r, widths n b -> 0 <= i -> zlen r <= max_int n ->
  zlen r = zlen s1 -> zlen r = zlen s2 -> zlen r - i <= Z.of_nat fuel ->
  exists r', val_loop fuel n f i s1 s2 r = Ok r' /\ zlen r' = zlen r /\
    forall j, 0 <= j -> ix r' j = if (i <=? j) && (j <? zlen r) then f (ix s1 j) (ix s2 j) else ix r j.
Proof.
  intros n b f s1 s2 fuel. induction fuel as [|fuel IH]; intros i s W I L L1 L2 F; cbn [val_loop]; destruct (i <? zlen s) eqn:E.
  - apply Z.ltb_lt in E. lia.
  - apply Z.ltb_ge in E. exists s. split; [reflexivity|]. split; [reflexivity|]. intros j J.
    replace ((i <=? j) && (j <? zlen s)) with false by lia. reflexivity.
  - apply Z.ltb_lt in E. rewrite !getA_ix by lia. cbn [bind]. rewrite setA_ix by lia. cbn [bind].
    rewrite (inc_ok n b) by (auto; lia). cbn [bind].
    set (r1 := set_nth (Z.to_nat i) (f (ix s1 i) (ix s2 i)) s). assert (LR : zlen r1 = zlen s) by (unfold r1, zlen; rewrite set_nth_length; reflexivity).
    destruct (IH (i + 1) r1 W) as (s' & E1 & E2 & E3); [lia|lia|lia|lia|lia|].
    exists s'. split; [exact E1|]. split; [lia|]. intros j J. rewrite E3, LR by lia. unfold r1. rewrite ix_set by lia.
    destruct (j =? i) eqn:Q; [apply Z.eqb_eq in Q; subst j; replace ((i + 1 <=? i) && _) with false by lia;
      replace ((i <=? i) && _) with true by lia; reflexivity|].
    apply Z.eqb_neq in Q. replace ((i <=? j) && (j <? zlen s)) with ((i + 1 <=? j) && (j <? zlen s)) by lia. reflexivity.
  - apply Z.ltb_ge in E. exists s. split; [reflexivity|]. split; [reflexivity|]. intros j J.
    replace ((i <=? j) && (j <? zlen s)) with false by lia. reflexivity.
Qed.
Lemma binary_ok : forall n b f g s1 s2 r, widths n b -> bitwise b f g -> zlen r <= max_int n -> words b s1 -> words b s2 ->
  zlen r = zlen s1 -> zlen r = zlen s2 ->
  exists r', binary n f s1 s2 r = Ok r' /\ words b r' /\ zlen r' = zlen r /\
    forall x, mem b r' x <-> room b r x /\ g (Z.testbit (ix s1 (x / b)) (x mod b)) (Z.testbit (ix s2 (x / b)) (x mod b)) = true.
Proof.
  intros n b f g s1 s2 r W G L W1 W2 L1 L2. pose proof (widths_pos n b W) as [B _]. unfold binary.
  rewrite (proj2 (Z.eqb_eq (zlen r) (zlen s1))), (proj2 (Z.eqb_eq (zlen r) (zlen s2))) by assumption. cbn [andb].
  destruct (val_loop_ok n b f s1 s2 (length r) 0 r W) as (r' & E & LR & X); [lia|lia|lia|lia|unfold zlen; lia|].
  exists r'. split; [exact E|]. split; [|split; [exact LR|]].
  - apply ix_words. intros j J. rewrite X by lia. replace ((0 <=? j) && (j <? zlen r)) with true by lia.
    apply G; apply words_ix; auto; lia.
  - intros x. unfold mem, room. rewrite LR.
    assert (H : 0 <= x < zlen r * b -> Z.testbit (ix r' (x / b)) (x mod b) = g (Z.testbit (ix s1 (x / b)) (x mod b)) (Z.testbit (ix s2 (x / b)) (x mod b))).
    { intros R. destruct (div_room b r x B R) as [D M]. rewrite X by lia.
      replace ((0 <=? x / b) && (x / b <? zlen r)) with true by lia.
      apply G; try (apply words_ix; auto; lia). lia. }
    split; intros (R & T); (split; [exact R|]); rewrite H in * by exact R; exact T.
Qed.
(** The operations of ulmSets with a separate result. *)
Theorem C70_operations : forall n b s1 s2 r, widths n b -> zlen r <= max_int n -> words b s1 -> words b s2 ->
  zlen r = zlen s1 -> zlen r = zlen s2 ->
  (exists r', Intersection n s1 s2 r = Ok r' /\ words b r' /\ zlen r' = zlen r /\ forall x, mem b r' x <-> mem b s1 x /\ mem b s2 x) /\
  (exists r', Union n s1 s2 r = Ok r' /\ words b r' /\ zlen r' = zlen r /\ forall x, mem b r' x <-> mem b s1 x \/ mem b s2 x) /\
  (exists r', Difference n b s1 s2 r = Ok r' /\ words b r' /\ zlen r' = zlen r /\ forall x, mem b r' x <-> mem b s1 x /\ ~ mem b s2 x) /\
  (exists r', SymDifference n s1 s2 r = Ok r' /\ words b r' /\ zlen r' = zlen r /\
     forall x, mem b r' x <-> (mem b s1 x /\ ~ mem b s2 x) \/ (mem b s2 x /\ ~ mem b s1 x)).
Proof.
  intros n b s1 s2 r W L W1 W2 L1 L2. pose proof (widths_pos n b W) as [B _].
  assert (F : forall g r' (Q : Prop -> Prop -> Prop),
    (forall x, mem b r' x <-> room b r x /\ g (Z.testbit (ix s1 (x / b)) (x mod b)) (Z.testbit (ix s2 (x / b)) (x mod b)) = true) ->
    (forall R p q, R /\ g p q = true <-> Q (R /\ p = true) (R /\ q = true)) ->
    forall x, mem b r' x <-> Q (mem b s1 x) (mem b s2 x)).
  { intros g r' Q H GQ x. rewrite H. unfold mem. rewrite <- L1, <- L2. fold (room b r x). apply GQ. }
  split; [|split; [|split]].
  - destruct (binary_ok n b _ _ s1 s2 r W (bits_times b B) L W1 W2 L1 L2) as (r' & E & WW & LL & M).
    exists r'. split; [exact E|]. split; [exact WW|]. split; [exact LL|].
    apply (F _ r' (fun p q => p /\ q) M). intros R p q. destruct p, q; cbn; intuition congruence.
  - destruct (binary_ok n b _ _ s1 s2 r W (bits_plus b B) L W1 W2 L1 L2) as (r' & E & WW & LL & M).
    exists r'. split; [exact E|]. split; [exact WW|]. split; [exact LL|].
    apply (F _ r' (fun p q => p \/ q) M). intros R p q. destruct p, q; cbn; intuition congruence.
  - destruct (binary_ok n b _ _ s1 s2 r W (bits_minus b B) L W1 W2 L1 L2) as (r' & E & WW & LL & M).
    exists r'. split; [exact E|]. split; [exact WW|]. split; [exact LL|].
    apply (F (fun p q => p && negb q) r' (fun p q => p /\ ~ q) M). intros R p q. destruct p, q; cbn; intuition congruence.
  - destruct (binary_ok n b _ _ s1 s2 r W (bits_slash b B) L W1 W2 L1 L2) as (r' & E & WW & LL & M).
    exists r'. split; [exact E|]. split; [exact WW|]. split; [exact LL|].
    apply (F _ r' (fun p q => (p /\ ~ q) \/ (q /\ ~ p)) M). intros R p q. destruct p, q; cbn; intuition congruence.
Qed.
Print Assumptions C70_operations.
Theorem C70_operations_lengths : forall n b s1 s2 r, zlen r <> zlen s1 \/ zlen r <> zlen s2 ->
  Intersection n s1 s2 r = Trap 0 /\ Union n s1 s2 r = Trap 0 /\ Difference n b s1 s2 r = Trap 0 /\ SymDifference n s1 s2 r = Trap 0.
Proof.
  intros n b s1 s2 r H. unfold Intersection, Union, Difference, SymDifference, binary.
  replace ((zlen r =? zlen s1) && (zlen r =? zlen s2)) with false by lia. auto.
Qed.
Print Assumptions C70_operations_lengths.

(** * Counting *)
Lemma card_none : forall p : Z -> Prop, (forall x, ~ p x) -> card p 0.
Proof. intros p H. exists []. split; [constructor|]. split; [|reflexivity]. intros x. split; [intros []|]. intros P. destruct (H x P). Qed.
Lemma card_ext : forall (p q : Z -> Prop) c, (forall x, p x <-> q x) -> card p c -> card q c.
Proof. intros p q c E (l & N & I & C). exists l. split; [exact N|]. split; [|exact C]. intros x. rewrite I. apply E. Qed.
Lemma card_add : forall (p q : Z -> Prop) i c, (forall x, q x <-> p x \/ x = i) -> ~ p i -> card p c -> card q (c + 1).
Proof.
  intros p q i c E N (l & ND & I & C). exists (i :: l). split; [constructor; [rewrite I; exact N|exact ND]|].
  split; [|rewrite zlen_cons; lia]. intros x. cbn [List.In]. rewrite I, E. split; intros [H|H]; auto.
Qed.
(** The elements below [i]. *)
Definition below (b : Z) (s : list Z) (i x : Z) : Prop := mem b s x /\ x < i.
Lemma below_step : forall b s i c (B : 0 < b), room b s i -> card (below b s i) c ->
  card (below b s (i + 1)) (if inword b (i mod b) (ix s (i / b)) then c + 1 else c).
Proof.
  intros b s i c B R C. pose proof (inword_mem b s i B R) as M. destruct (inword b (i mod b) (ix s (i / b))).
  - apply (card_add (below b s i) _ i); [|unfold below; lia|exact C]. intros x. unfold below. split.
    + intros (X & L). destruct (Z.eq_dec x i); [auto|]. left. split; [exact X|lia].
    + intros [(X & L)| ->]; (split; [|lia]); auto. apply M. reflexivity.
  - apply (card_ext (below b s i)); [|exact C]. intros x. unfold below. split; [intros (X & L); split; [exact X|lia]|].
    intros (X & L). split; [exact X|]. assert (x <> i) by (intros ->; apply M in X; discriminate). lia.
Qed.

(** The number of elements and the last one; [lastElem] is unchanged if there is none. *)
Lemma elem_loop_ok : forall n b s l0 fuel i cnt last, widths n b -> zlen s * b <= max_int n -> 0 <= i <= zlen s * b -> 0 <= cnt <= i ->
  zlen s * b - i <= Z.of_nat fuel -> card (below b s i) cnt ->
  ((forall x, ~ below b s i x) /\ last = l0 \/ below b s i last /\ forall x, below b s i x -> x <= last) ->
  exists c l, elem_loop fuel n b i (zlen s * b) s cnt last = Ok (c, l) /\ card (mem b s) c /\
    ((forall x, ~ mem b s x) /\ l = l0 \/ mem b s l /\ forall x, mem b s x -> x <= l).
Proof.
  intros n b s l0 fuel. assert (END : forall i (p : Z -> Prop), i = zlen s * b -> forall x, below b s i x <-> mem b s x).
  { intros i _ -> x. unfold below, mem. tauto. }
  induction fuel as [|fuel IH]; intros i cnt last W L I CI F C LA; cbn [elem_loop]; destruct (i <? zlen s * b) eqn:E.
  - lia.
  - assert (Q : i = zlen s * b) by lia. pose proof (END i (fun _ => True) Q) as EN. exists cnt, last. split; [reflexivity|].
    split; [eapply card_ext; [exact EN|exact C]|]. destruct LA as [(LA & ->)|(LA & LB)].
    + left. split; [|reflexivity]. intros x. rewrite <- EN. apply LA.
    + right. rewrite <- EN. split; [exact LA|]. intros x. rewrite <- EN. apply LB.
  - apply Z.ltb_lt in E. pose proof (widths_pos n b W) as [B _].
    assert (R : room b s i) by (unfold room; lia). destruct (div_room b s i B R) as [D M].
    rewrite getA_ix by lia. cbn [bind]. pose proof (below_step b s i cnt B R C) as C1. pose proof (inword_mem b s i B R) as IM.
    destruct (inword b (i mod b) (ix s (i / b))) eqn:Q.
    + rewrite (inc_ok n b cnt) by (auto; lia). cbn [bind]. rewrite (inc_ok n b i) by (auto; lia). cbn [bind].
      apply IH; auto; try lia. right. assert (MI : mem b s i) by (apply IM; reflexivity). unfold below. split; [split; [exact MI|lia]|].
      intros x (_ & X). lia.
    + cbn [bind]. rewrite (inc_ok n b i) by (auto; lia). cbn [bind]. apply IH; auto; try lia.
      assert (NI : ~ mem b s i) by (intros X; apply IM in X; discriminate).
      assert (EQ : forall x, below b s (i + 1) x <-> below b s i x).
      { intros x. unfold below. split; [|intros (X & Y); split; [exact X|lia]]. intros (X & Y). split; [exact X|].
        assert (x <> i) by (intros ->; contradiction). lia. }
      destruct LA as [(LA & ->)|(LA & LB)]; [left|right].
      * split; [|reflexivity]. intros x. rewrite EQ. apply LA.
      * rewrite EQ. split; [exact LA|]. intros x. rewrite EQ. apply LB.
  - assert (Q : i = zlen s * b) by lia. pose proof (END i (fun _ => True) Q) as EN. exists cnt, last. split; [reflexivity|].
    split; [eapply card_ext; [exact EN|exact C]|]. destruct LA as [(LA & ->)|(LA & LB)].
    + left. split; [|reflexivity]. intros x. rewrite <- EN. apply LA.
    + right. rewrite <- EN. split; [exact LA|]. intros x. rewrite <- EN. apply LB.
Qed.
Lemma max_elem_ok : forall n b s, widths n b -> zlen s * b <= max_int n -> max_elem n b s = Ok (zlen s * b).
Proof.
  intros n b s W L. pose proof (widths_pos n b W) as (B & N & _). pose proof (zlen_nonneg _ s). unfold max_elem.
  assert (R : in_int n (zlen s * b)) by (unfold in_int, max_int in *; nia).
  assert (R1 : in_int n (zlen s)) by (unfold in_int, max_int in *; nia).
  rewrite (wrap_s_id n (zlen s)) by (auto; lia).
  destruct (n <? 32); [rewrite wrap_s_id by (auto; lia); reflexivity|apply chk_ok; exact R].
Qed.
Theorem C70_elements : forall n b s last, widths n b -> zlen s * b <= max_int n ->
  exists c l, Elements n b s last = Ok (c, l) /\ card (mem b s) c /\
    ((forall x, ~ mem b s x) /\ l = last \/ mem b s l /\ forall x, mem b s x -> x <= l).
Proof.
  intros n b s last W L. pose proof (widths_pos n b W) as (B & N & _). pose proof (zlen_nonneg _ s). unfold Elements.
  rewrite max_elem_ok by auto. cbn [bind].
  assert (E0 : forall x, ~ below b s 0 x) by (intros x ((R & _) & X); lia).
  apply elem_loop_ok; auto; try lia; try nia. apply card_none. exact E0.
Qed.
Print Assumptions C70_elements.
(** With 1024 words of 32 elements the number of the last one exceeds INTEGER: the result is 0 for every set. *)
Theorem C70_elements_refuted : forall s last, zlen s = 1024 -> Elements 16 32 s last = Ok (0, last).
Proof. intros s last L. unfold Elements, max_elem. rewrite L. reflexivity. Qed.
Print Assumptions C70_elements_refuted.

Lemma card_word_ok : forall n b s i fuel k card0, widths n b -> zlen s * b <= max_int n -> 0 <= i < zlen s -> 0 <= k <= b ->
  0 <= card0 <= i * b + k -> b - k <= Z.of_nat fuel -> card (below b s (i * b + k)) card0 ->
  exists c, card_word fuel n b k (ix s i) card0 = Ok c /\ 0 <= c <= i * b + b /\ card (below b s (i * b + b)) c.
Proof.
  intros n b s i fuel. induction fuel as [|fuel IH]; intros k c0 W L I K CI F C; cbn [card_word]; destruct (k <=? b - 1) eqn:E.
  - lia.
  - assert (k = b) as -> by lia. exists c0. split; [reflexivity|]. split; [lia|exact C].
  - apply Z.leb_le in E. pose proof (widths_pos n b W) as (B & N & MX).
    destruct (room_of b s i k I) as (R & D & M); [lia|].
    pose proof (below_step b s (i * b + k) c0 B R C) as C1. rewrite D, M in C1.
    unfold room in R. assert (b <= zlen s * b) by nia.
    destruct (inword b k (ix s i)).
    + rewrite (inc_ok n b c0) by (auto; lia). cbn [bind]. rewrite (inc_ok n b k) by (auto; lia). cbn [bind].
      apply IH; auto; try lia. rewrite Z.add_assoc. exact C1.
    + cbn [bind]. rewrite (inc_ok n b k) by (auto; lia). cbn [bind]. apply IH; auto; try lia. rewrite Z.add_assoc. exact C1.
  - assert (k = b) as -> by lia. exists c0. split; [reflexivity|]. split; [lia|exact C].
Qed.
Lemma card_loop_ok : forall n b s fuel i c0, widths n b -> zlen s * b <= max_int n -> 0 <= i <= zlen s ->
  0 <= c0 <= i * b -> zlen s - i <= Z.of_nat fuel -> card (below b s (i * b)) c0 ->
  exists c, card_loop fuel n b i s c0 = Ok c /\ card (mem b s) c.
Proof.
  intros n b s fuel.
  assert (END : forall i c, i = zlen s -> card (below b s (i * b)) c -> card (mem b s) c).
  { intros i c -> C. eapply card_ext; [|exact C]. intros x. unfold below, mem. tauto. }
  induction fuel as [|fuel IH]; intros i c0 W L I CI F C; cbn [card_loop]; destruct (i <? zlen s) eqn:E.
  - lia.
  - exists c0. split; [reflexivity|]. apply (END i); [lia|exact C].
  - apply Z.ltb_lt in E. pose proof (widths_pos n b W) as (B & N & MX). rewrite getA_ix by lia. cbn [bind].
    destruct (card_word_ok n b s i (Z.to_nat b) 0 c0 W L) as (c & E1 & CB & C1); [lia|lia|lia|lia|rewrite Z.add_0_r; exact C|].
    rewrite E1. cbn [bind]. assert (zlen s <= zlen s * b) by nia. rewrite (inc_ok n b i) by (auto; lia). cbn [bind].
    apply IH; auto; try lia. replace ((i + 1) * b) with (i * b + b) by lia. exact C1.
  - exists c0. split; [reflexivity|]. apply (END i); [lia|exact C].
Qed.
Theorem C70_card : forall n b s, widths n b -> zlen s * b <= max_int n -> exists c, Card n b s = Ok c /\ card (mem b s) c.
Proof.
  intros n b s W L. pose proof (zlen_nonneg _ s). apply card_loop_ok; auto; try lia; [unfold zlen; lia|].
  apply card_none. intros x ((R & _) & X). lia.
Qed.
Print Assumptions C70_card.
(** Two counts of a set are equal, so [card] is the number of elements. *)
Theorem C70_card_unique : forall p c d, card p c -> card p d -> c = d.
Proof.
  intros p c d (l & N & I & ->) (m & N' & I' & ->). unfold zlen. f_equal.
  apply Nat.le_antisymm; apply NoDup_incl_length; auto; intros x X; [apply I', I|apply I, I']; exact X.
Qed.
Print Assumptions C70_card_unique.

(** * A case *)
Module Case.
  (** {3, 31, 32, 95} in three words of 32, {32, 95} in four. *)
  Definition s : list Z := [2 ^ 3 + 2 ^ 31; 1; 2 ^ 31].
  Definition t : list Z := [0; 1; 2 ^ 31; 0].
  Example ws : words 32 s /\ words 32 t. Proof. split; repeat constructor; vm_compute; intuition discriminate. Qed.
  Example width : widths 16 32 /\ zlen s <= max_int 16 /\ zlen s * 32 <= max_int 16. Proof. vm_compute. intuition discriminate. Qed.
  Example m : mem 32 s 31. Proof. vm_compute. intuition discriminate. Qed.
  Example rm : room 32 s 95 /\ ~ room 32 s 96. Proof. vm_compute. intuition congruence. Qed.
  Example add : Incl 32 s 40 = Ok [2 ^ 3 + 2 ^ 31; 257; 2 ^ 31]. Proof. vm_compute. reflexivity. Qed.
  Example count : Elements 16 32 s 7 = Ok (4, 95) /\ Card 32 32 s = Ok 4. Proof. vm_compute. auto. Qed.
  Example sub : uSubset 32 32 t s = Ok true /\ uEqual 32 t [0; 1; 2 ^ 31] = Ok true /\ uSubset 32 32 s t = Ok false. Proof. vm_compute. auto. Qed.
  Definition st (x : nat) : list Z := match x with O => s | _ => t end.
  Example un : match Differ 16 32 st 0 1 with Ok st' => st' 0%nat = [2 ^ 3 + 2 ^ 31; 0; 0] | _ => False end. Proof. vm_compute. reflexivity. Qed.
End Case.
