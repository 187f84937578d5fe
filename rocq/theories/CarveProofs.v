From Verif Require Import Base ArrZ HeapModel HeapSpec MarkProofs LayProofs SortProofs ScanProofs AllocProofs.

Lemma recut_inside : forall L b new a, inside (recut L b new) a <-> inside L a.
Proof.
  intros L b new a. unfold inside, recut. split.
  - intros (c & I & Q). apply in_map_iff in I. destruct I as (d & <- & I). exists d. auto.
  - intros (c & I & Q). eexists. split; [apply in_map_iff; exists c; split; [reflexivity|auto]|]. auto.
Qed.
Lemma recut_blocks : forall L b new x, In x (blocks (recut L b new)) <-> (In x (blocks L) /\ ba x <> ba b) \/ (In x new /\ exists d, In d (blocks L) /\ ba d = ba b).
Proof.
  intros L b new x. rewrite !in_blocks. unfold recut. split.
  - intros (c & I & Q). apply in_map_iff in I. destruct I as (d & <- & I). cbn [cb] in Q. apply in_flat_map in Q. destruct Q as (y & Y & Q). destruct (ba y =? ba b) eqn:E.
    + right. split; auto. exists y. split; [apply in_blocks; exists d; auto|lia].
    + destruct Q as [<-|[]]. left. split; [exists d; auto|lia].
  - intros [((c & I & Q) & N)|(Q & d & D & E)].
    + eexists. split; [apply in_map_iff; exists c; split; [reflexivity|auto]|]. cbn [cb]. apply in_flat_map. exists x. split; auto. replace (ba x =? ba b) with false by lia. left; auto.
    + apply in_blocks in D. destruct D as (c & I & D). eexists. split; [apply in_map_iff; exists c; split; [reflexivity|auto]|]. cbn [cb]. apply in_flat_map. exists d. split; auto. replace (ba d =? ba b) with true by lia. auto.
Qed.
Lemma recut_tiles : forall b new bs a e, tiles a bs e -> (forall d, In d bs -> ba d = ba b -> d = b) -> tiles (ba b) new (ba b + bsz b) -> tiles a (flat_map (fun d => if ba d =? ba b then new else [d]) bs) e.
Proof.
  intros b new. induction bs as [|d bs IH]; intros a e T U N; cbn [flat_map]; auto. cbn [tiles] in T. destruct T as (T1 & T2 & T3).
  assert (R : tiles (a + bsz d) (flat_map (fun d => if ba d =? ba b then new else [d]) bs) e) by (apply IH; auto; intros; apply U; auto; right; auto).
  destruct (ba d =? ba b) eqn:E.
  - assert (d = b) by (apply U; [left; auto|lia]). subst d. apply tiles_app. exists (ba b + bsz b). split; [rewrite <- T1; auto|]. rewrite <- T1 in R. exact R.
  - cbn [app tiles]. auto.
Qed.
Lemma recut_placed : forall b new L lo, placed lo L -> (forall d, In d (blocks L) -> ba d = ba b -> d = b) -> tiles (ba b) new (ba b + bsz b) -> placed lo (recut L b new).
Proof.
  intros b new. induction L as [|c L IH]; intros lo H U N; cbn [recut map placed ca ce cb] in *; auto. destruct H as (A & P & B & C & D). split; auto. split; auto. split; auto. split.
  - apply recut_tiles; auto. intros d I. apply U. apply in_blocks. exists c. split; [left|]; auto.
  - apply IH; auto. intros d I. apply U. apply in_blocks in I. destruct I as (x & X & Y). apply in_blocks. exists x. split; [right|]; auto.
Qed.
Lemma recut_chained : forall m b new L h, chained m h L -> chained m h (recut L b new).
Proof. intros m b new. induction L as [|c L IH]; intros h H; cbn [recut map chained ca ce] in *; auto. destruct H as (A & B & nx & C & D). split; auto. split; auto. exists nx. split; auto. Qed.
Lemma chained_frame : forall (m m' : mem) L h, (forall c a, In c L -> ca c <= a < ca c + 24 -> m' a = m a) -> chained m h L -> chained m' h L.
Proof.
  intros m m'. induction L as [|c L IH]; intros h G Ch; cbn [chained] in *; auto. destruct Ch as (Q & B & nx & D & E). split; auto. rewrite !(G c) by (try (left; reflexivity); lia). split; auto. exists nx. split; auto. apply IH; auto. intros; apply (G c0); auto. right; auto.
Qed.
Definition cut (b : blk) (rest : Z) (nb : blk) : list blk := (if rest =? 0 then [] else [freeb (ba b) rest]) ++ [nb].

Section CARVE.
Variables (s : hst) (L : list chunk) (ls : Z -> list Z).
Hypothesis HI : hinv s L ls.
Let P := ho_placed _ _ _ _ (hi_ok _ _ _ HI).
Variables (s' : hst) (ls1 : Z -> list Z) (b : blk) (j k : Z) (nb : blk).
Hypothesis B : In b (blocks L).
Hypothesis F : free ls (ba b).
Hypothesis J : 0 <= j.
Hypothesis K : 1 <= k.
Hypothesis Sz : bsz b = 32 * j + 32 * k.
Hypothesis T : taken s ls (hm s') (fl s') (big s') ls1 b (32 * j).
Let L' := recut L b (cut b (32 * j) nb).

Lemma blk_uniq : forall d, In d (blocks L) -> ba d = ba b -> d = b.
Proof. intros d D E. pose proof (bsz_pos _ _ _ P D). pose proof (bsz_pos _ _ _ P B). apply (block_same L 1 _ _ (ba b) P); auto; lia. Qed.
(** Addresses outside all blocks, and inside blocks that are not free, keep their contents. *)
Lemma out_same : forall a, (forall d, In d (blocks L) -> ~ (ba d <= a < ba d + bsz d)) -> hm s' a = hm s a.
Proof.
  intros a A. apply (tk_fr _ _ _ _ _ _ _ _ T); [apply A; auto|]. intros x X ->. destruct (free_blk _ _ _ HI x X) as (d & D1 & D2 & _). pose proof (bsz_pos _ _ _ P D1). apply (A d D1). lia.
Qed.
Lemma in_same : forall d a, In d (blocks L) -> ba d <= a < ba d + bsz d -> ba d <> ba b -> (free ls (ba d) -> a <> ba d + 24) -> hm s' a = hm s a.
Proof.
  intros d a D A N Q. apply (tk_fr _ _ _ _ _ _ _ _ T).
  - intro X. apply N. f_equal. apply (block_same L 1 _ _ a P); auto.
  - intros x X E. destruct (free_blk _ _ _ HI x X) as (y & Y1 & Y2 & _). pose proof (bsz_pos _ _ _ P Y1). assert (y = d) by (apply (block_same L 1 _ _ a P); auto; lia). subst y. subst x. apply Q; auto.
Qed.
Lemma live_same : forall d a, In d (blocks L) -> ~ free ls (ba d) -> ba d <= a < ba d + bsz d -> hm s' a = hm s a.
Proof. intros d a D N A. apply (in_same d); [auto|auto| |tauto]. intro E. apply N. rewrite E. auto. Qed.
Lemma table_same : forall d, In d (blocks L) -> ba d <> ba b -> words (hm s') (btag d) (table d).
Proof.
  intros d D N. apply (words_frame (hm s)); [|apply (ho_tab _ _ _ _ (hi_ok _ _ _ HI) d D)]. rewrite table_len. intros i I. destruct (wf_tab _ _ (ho_wf _ _ _ _ (hi_ok _ _ _ HI) d D)) as [W|(W1 & W2 & _)].
  - apply out_same. intros x X Q. apply (W i ltac:(lia)). apply (block_in L 1 x _ P X Q).
  - apply (in_same d); auto; [unfold ptr in *; lia|]. intros Fd. destruct (free_blk _ _ _ HI _ Fd) as (x & X1 & X2 & X3 & X4). assert (x = d). { pose proof (bsz_pos _ _ _ P X1). pose proof (bsz_pos _ _ _ P D). apply (block_same L 1 _ _ (ba d) P); auto; lia. } subst x.
    rewrite X3. rewrite X4, zlen_nil in I. lia.
Qed.
Hypothesis NB1 : ba nb = ba b + 32 * j.
Hypothesis NB2 : bsz nb = 32 * k.
Hypothesis NBw : wfb L nb.
Hypothesis NBt : words (hm s') (btag nb) (table nb).
Hypothesis NBh : hm s' (ba nb) = Some (btag nb).
Hypothesis NBz : forall o, In o (bofs nb) -> hm s' (ptr nb + o) = Some 0.
Hypothesis Same : heap s' = heap s /\ hmin s' = hmin s /\ hmax s' = hmax s /\ hsize s' = hsize s /\ hexp s' = hexp s.
Lemma cut_tiles : tiles (ba b) (cut b (32 * j) nb) (ba b + bsz b).
Proof.
  unfold cut. destruct (32 * j =? 0) eqn:E; cbn [app tiles freeb ba bsz].
  - split; [lia|]. split; [exists k; lia|]. lia.
  - split; auto. split; [exists j; lia|]. split; [lia|]. split; [exists k; lia|]. lia.
Qed.
Lemma recut_in : forall x, In x (blocks L') <-> (In x (blocks L) /\ ba x <> ba b) \/ (x = freeb (ba b) (32 * j) /\ 0 < j) \/ x = nb.
Proof.
  intro x. unfold L'. rewrite recut_blocks. unfold cut. destruct (32 * j =? 0) eqn:E; cbn [app In].
  - split.
    + intros [|([<-|[]] & _)]; auto.
    + intros [|[(_ & Q)| ->]]; [auto|exfalso; clear - E Q; lia|]. right. split; auto. exists b. auto.
  - split.
    + intros [|([<-|[<-|[]]] & _)]; auto. right. left. split; auto. clear - E J. lia.
    + intros [|[(-> & Q)| ->]]; [auto| |]; right; (split; [auto|exists b; auto]).
Qed.
Lemma nb_in : In nb (blocks L').
Proof. apply recut_in. auto. Qed.
Lemma carve_hinv : hinv s' L' ls1.
Proof.
  destruct Same as (S1 & S2 & S3 & S4 & S5). pose proof (hi_ok _ _ _ HI) as OK.
  assert (ST : 0 < ba b) by (destruct (block_chunk _ _ _ P B) as (c & _ & _ & _ & _ & _ & _ & _ & R); lia).
  assert (FL : forall d o, In d (blocks L) -> In o (bofs d) -> ~ free ls (ba d)).
  { intros d o D O Fd. destruct (free_blk _ _ _ HI _ Fd) as (x & X1 & X2 & X3 & X4). assert (x = d). { pose proof (bsz_pos _ _ _ P X1). pose proof (bsz_pos _ _ _ P D). apply (block_same L 1 _ _ (ba d) P); auto; lia. } subst x. rewrite X4 in O. destruct O. }
  assert (FV : forall d o, In d (blocks L) -> In o (bofs d) -> val (hm s') (ptr d + o) = val (hm s) (ptr d + o)).
  { intros d o D O. unfold val. rewrite (live_same d); auto; [eapply FL; eauto|]. pose proof (fld_loc _ _ _ _ OK d o D O). lia. }
  assert (PL : placed 1 L') by (apply recut_placed; [exact P|apply blk_uniq|apply cut_tiles]).
  constructor.
  - constructor; auto.
    + rewrite S1. apply recut_chained. apply (chained_frame (hm s)); [|apply (ho_chain _ _ _ _ OK)]. intros c a C A. apply out_same. intros d D. apply (header_not_block L 1 c d a P C D A).
    + intros a A Ka. apply (tk_dom _ _ _ _ _ _ _ _ T). apply (ho_map _ _ _ _ OK); auto. apply (recut_inside L b (cut b (32 * j) nb)). auto.
    + intros d D. apply recut_in in D. destruct D as [(D & N)|[(-> & J1)| ->]].
      * destruct (ho_wf _ _ _ _ OK d D) as [W1 W2 W3 W4]. constructor; auto. destruct W4 as [W4|W4]; auto. left. intros i I Q. apply (W4 i I). apply (recut_inside L b (cut b (32 * j) nb)). auto.
      * destruct (block_chunk _ _ _ P B) as (c & _ & _ & _ & _ & _ & (q & Q) & _). constructor; cbn [btag bofs freeb ba bsz]; [|constructor|intros o []|].
        -- replace (ba b + 8) with (2 * (4 * q + 4)) by lia. rewrite Z.odd_mul. reflexivity.
        -- right. unfold ptr. cbn [ba freeb]. rewrite zlen_nil. split; [lia|]. split; [lia|]. intros o [].
      * destruct NBw as [W1 W2 W3 W4]. constructor; auto. destruct W4 as [W4|W4]; auto. left. intros i I Q. apply (W4 i I). apply (recut_inside L b (cut b (32 * j) nb)). auto.
    + intros d D. apply recut_in in D. destruct D as [(D & N)|[(-> & J1)| ->]]; auto; [apply table_same; auto|]. pose proof (tk_w _ _ _ _ _ _ _ _ T ltac:(lia)) as W. unfold table. cbn [btag bofs freeb bsz app]. rewrite zlen_nil. cbn [words] in *. tauto.
    + intros d D. replace (isin (ptr d) []) with false by reflexivity. rewrite Z.add_0_r. apply recut_in in D. destruct D as [(D & N)|[(-> & J1)| ->]]; auto.
      * pose proof (bsz_pos _ _ _ P D). rewrite (in_same d); auto; try lia. pose proof (ho_head _ _ _ _ OK d D) as Q. replace (isin (ptr d) []) with false in Q by reflexivity. rewrite Z.add_0_r in Q. auto.
      * pose proof (tk_w _ _ _ _ _ _ _ _ T ltac:(lia)) as W. cbn [words btag freeb ba] in *. tauto.
    + intros d o D O. apply recut_in in D. destruct D as [(D & N)|[(-> & J1)| ->]]; [|destruct O|].
      * rewrite FV by auto. destruct (ho_fld _ _ _ _ OK d o D O) as [|Q]; auto. destruct (Z.eq_dec (val (hm s) (ptr d + o)) 0) as [|Nz]; auto. right. pose proof (hi_live _ _ _ HI d o D O Nz) as Lv. apply in_map_iff in Q. destruct Q as (x & Ex & X). rewrite <- Ex in *. apply in_map. apply recut_in. left. split; auto.
        intro E. apply Lv. unfold ptr. replace (ba x + 8 - 8) with (ba b) by lia. auto.
      * left. unfold val. rewrite NBz by auto. auto.
  - apply (tk_ls _ _ _ _ _ _ _ _ T).
  - intros i a I A. destruct (tk_in _ _ _ _ _ _ _ _ T i a I A) as [(Q1 & Q2)|(-> & Q1 & Q2)].
    + destruct (hi_fr _ _ _ HI i a I Q1) as (x & X1 & X2 & X3 & X4 & X5). exists x. split; auto. apply recut_in. left. split; auto. congruence.
    + exists (freeb (ba b) (32 * j)). cbn [ba btag bofs bsz freeb]. split; [apply recut_in; right; left; split; auto; lia|]. auto.
  - apply (tk_nd _ _ _ _ _ _ _ _ T).
  - apply (tk_dj _ _ _ _ _ _ _ _ T).
  - intros d o D O Nz. apply recut_in in D. destruct D as [(D & N)|[(-> & J1)| ->]]; [|destruct O|].
    + rewrite FV in * by auto. pose proof (hi_live _ _ _ HI d o D O Nz) as Lv. intros (i & I & A). apply Lv. destruct (tk_in _ _ _ _ _ _ _ _ T i _ I A) as [(Q1 & _)|(Q1 & _)]; [exists i; auto|]. rewrite Q1. auto.
    + exfalso. apply Nz. unfold val. rewrite NBz by auto. auto.
  - intros d D. rewrite S2, S3. apply recut_in in D. pose proof (hi_rng _ _ _ HI b B) as R. unfold ptr in *. destruct D as [(D & N)|[(-> & J1)| ->]]; [apply (hi_rng _ _ _ HI d D)|cbn [freeb ba bsz]; lia|lia].
  - intro E. apply (hi_ne _ _ _ HI). unfold L', recut in E. apply map_eq_nil in E. auto.
  - rewrite S5. apply (hi_exp _ _ _ HI).
  - rewrite S4. apply (hi_size _ _ _ HI).
Qed.
End CARVE.
