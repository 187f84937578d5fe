From Verif Require Import Base ArrZ HeapModel HeapSpec MarkProofs LayProofs SortProofs.
Require Import Sorted Permutation.

(** A candidate hits a block if it points to its data, not necessarily to the first word. *)
Definition hit (cs : list Z) (b : blk) : Prop := exists c, In c cs /\ ptr b <= c < ba b + bsz b.

Lemma skip_below_spec : forall x cs, StronglySorted Z.le cs -> exists p, cs = p ++ skip_below x cs /\ Forall (fun c => c < x) p /\
  StronglySorted Z.le (skip_below x cs) /\ Forall (fun c => x <= c) (skip_below x cs).
Proof.
  intro x. induction cs as [|c cs IH]; intro S; cbn [skip_below]; [exists []; auto|]. inversion S; subst. destruct (c <? x) eqn:E.
  - destruct (IH H1) as (p & A & B & C & D). exists (c :: p). split; [cbn [app]; congruence|]. split; auto. constructor; auto. lia.
  - exists []. split; auto. split; auto. split; auto. constructor; [lia|]. eapply Forall_impl; [|exact H2]. cbn beta. intros; lia.
Qed.
Lemma hit_app : forall p q b, Forall (fun c => c < ptr b) p -> (hit (p ++ q) b <-> hit q b).
Proof.
  intros p q b F. unfold hit. split; intros (c & I & Q).
  - apply in_app_or in I. destruct I as [I|I]; [|eauto]. rewrite Forall_forall in F. specialize (F c I). lia.
  - exists c. split; auto. apply in_or_app; auto.
Qed.

Lemma SS_min : forall c r k, StronglySorted Z.le (c :: r) -> In k (c :: r) -> c <= k.
Proof. intros c r k S I. inversion S as [|? ? ? F]; subst. destruct I as [<-|I]; [lia|]. rewrite Forall_forall in F. apply F; auto. Qed.

Lemma SS_unique : forall l l', StronglySorted Z.le l -> StronglySorted Z.le l' -> Permutation l l' -> l = l'.
Proof.
  induction l as [|x l IH]; intros l' S1 S2 Pm.
  - apply Permutation_nil in Pm. auto.
  - destruct l' as [|y l']; [apply Permutation_sym, Permutation_nil in Pm; discriminate|].
    assert (I1 : In x (y :: l')) by (eapply Permutation_in; [exact Pm|left; auto]). assert (I2 : In y (x :: l)) by (eapply Permutation_in; [apply Permutation_sym; exact Pm|left; auto]).
    pose proof (SS_min _ _ _ S1 I2). pose proof (SS_min _ _ _ S2 I1). assert (x = y) by lia. subst y. f_equal. inversion S1; inversion S2; subst. apply IH; auto. eapply Permutation_cons_inv; eauto.
Qed.

Section MC.
Variables (m0 : mem) (h : Z) (L : list chunk) (M0 : list Z).
Hypothesis H : heapok m0 h L M0.
Let g := graph_of m0 L.
Let P := ho_placed _ _ _ _ H.

Lemma mc_blocks_spec : forall bs adr e cs m M, (forall b, In b bs -> In b (blocks L)) -> tiles adr bs e -> marking m0 L m M -> StronglySorted Z.le cs ->
  exists N m' M' cs' p, (forall fuel, (N <= fuel)%nat -> mc_blocks fuel m adr e cs = Ok (m', cs')) /\ marking m0 L m' M' /\
    (forall x, In x M' <-> In x M \/ exists b, In b bs /\ hit cs b /\ reach g (ptr b) x) /\
    cs = p ++ cs' /\ Forall (fun c => c < e + 8) p /\ StronglySorted Z.le cs'.
Proof.
  induction bs as [|b bs IH]; intros adr e cs m M BI T K S; cbn [tiles] in T.
  - exists 1%nat, m, M, cs, []. split; [|split; [|split; [|split; [|split]]]]; auto.
    + intros fuel F. destruct fuel as [|fuel]; [lia|]. cbn [mc_blocks]. replace (adr <? e) with false by lia. reflexivity.
    + intro x. split; auto. intros [X|(b & [] & _)]; auto.
  - destruct T as (<- & (u & U1 & U2) & T). pose proof (tiles_le _ _ _ T) as Te. assert (B : In b (blocks L)) by (apply BI; left; auto).
    assert (BI' : forall b, In b bs -> In b (blocks L)) by (intros; apply BI; right; auto).
    assert (Later : forall d, In d bs -> ba b + bsz b <= ba d /\ ba d + bsz d <= e) by (intros d D; destruct (tiles_in _ _ _ _ T D) as (Q1 & Q2 & _); lia).
    pose proof (mk_head m0 h L M0 H m M b K B) as Hd. pose proof (mk_odd m0 h L M0 H m M b K B) as Od. pose proof (mk_size m0 h L M0 H m M b K B) as Sz.
    assert (CLB : In (ptr b) M -> forall x, reach g (ptr b) x -> In x M).
    { intros I x R. induction R; auto. eapply (mk_cl _ _ _ _ K); eauto. }
    destruct (isin (ptr b) M) eqn:IM.
    + apply isin_true in IM. destruct (skip_below_spec (ba b + bsz b + 8) cs S) as (p & E & F & S1 & G). remember (skip_below (ba b + bsz b + 8) cs) as cs1 eqn:Ecs.
      assert (HL : forall d, In d bs -> (hit cs d <-> hit cs1 d)).
      { intros d D. rewrite E. apply hit_app. destruct (Later d D). eapply Forall_impl; [|exact F]. cbn beta. unfold ptr. intros; lia. }
      assert (Unf : forall fuel, mc_blocks (Datatypes.S fuel) m (ba b) e cs = match cs1 with [] => Ok (m, []) | c :: r => mc_blocks fuel m (if e <=? c then e else ba b + bsz b) e (c :: r) end).
      { intro fuel. cbn [mc_blocks]. replace (ba b <? e) with true by lia. rewrite (get_ok _ _ _ Hd), bind_ok, Od. replace (btag b + 1 - 1) with (btag b) by lia. rewrite (get_ok _ _ _ Sz), bind_ok. rewrite <- Ecs. reflexivity. }
      assert (Eb : forall x, (exists d, In d (b :: bs) /\ hit cs d /\ reach g (ptr d) x) -> In x M \/ exists d, In d bs /\ hit cs1 d /\ reach g (ptr d) x).
      { intros x (d & [<-|D] & Q & R); [left; eapply CLB; eauto|right; exists d; split; auto; split; auto; apply HL; auto]. }
      destruct cs1 as [|c r].
      * exists 1%nat, m, M, [], p. split; [|split; [|split; [|split; [|split]]]]; auto.
        -- intros fuel Q. destruct fuel as [|fuel]; [lia|]. rewrite Unf. reflexivity.
        -- intro x. split; auto. intros [X|X]; auto. destruct (Eb x X) as [Y|(d & _ & (c & [] & _) & _)]; auto.
        -- eapply Forall_impl; [|exact F]. cbn beta. intros; lia.
      * destruct (e <=? c) eqn:Ec.
        -- exists 2%nat, m, M, (c :: r), p. split; [|split; [|split; [|split; [|split]]]]; auto.
           ++ intros fuel Q. destruct fuel as [|fuel]; [lia|]. rewrite Unf. destruct fuel as [|fuel]; [lia|]. cbn [mc_blocks]. replace (e <? e) with false by lia. reflexivity.
           ++ intro x. split; auto. intros [X|X]; auto. destruct (Eb x X) as [Y|(d & D & (k & I & Q) & _)]; auto. destruct (Later d D). exfalso. pose proof (SS_min c r k S1 I). lia.
           ++ eapply Forall_impl; [|exact F]. cbn beta. intros; lia.
        -- destruct (IH (ba b + bsz b) e (c :: r) m M BI' T K S1) as (N & m' & M' & cs' & p' & A1 & A2 & A3 & A4 & A5 & A6).
           exists (Datatypes.S N), m', M', cs', (p ++ p'). split; [|split; [|split; [|split; [|split]]]]; auto.
           ++ intros fuel Q. destruct fuel as [|fuel]; [lia|]. rewrite Unf. apply A1. lia.
           ++ intro x. rewrite A3. split; [intros [X|(d & D & Q & R)]; auto; right; exists d; split; [right; auto|]; split; auto; apply HL; auto|]. intros [X|X]; auto.
           ++ rewrite <- app_assoc. congruence.
           ++ apply Forall_app. split; auto. eapply Forall_impl; [|exact F]. cbn beta. intros; lia.
    + apply isin_false in IM. destruct (skip_below_spec (ba b + 8) cs S) as (p & E & F & S1 & G). remember (skip_below (ba b + 8) cs) as cs1 eqn:Ecs. rewrite Z.add_0_r in *.
      assert (HL : forall d, In d (b :: bs) -> (hit cs d <-> hit cs1 d)).
      { intros d D. rewrite E. apply hit_app. eapply Forall_impl; [|exact F]. cbn beta. unfold ptr. intros a Ha. destruct D as [<-|D]; [lia|]. destruct (Later d D). lia. }
      assert (Unf : forall fuel, mc_blocks (Datatypes.S fuel) m (ba b) e cs = match cs1 with [] => Ok (m, []) | c :: r => let* m := (if c <? ba b + bsz b then Mark fuel m (ptr b) else Ok m) in mc_blocks fuel m (if e <=? c then e else ba b + bsz b) e (c :: r) end).
      { intro fuel. cbn [mc_blocks]. replace (ba b <? e) with true by lia. rewrite (get_ok _ _ _ Hd), bind_ok, Od. rewrite (get_ok _ _ _ Sz), bind_ok. rewrite <- Ecs. reflexivity. }
      destruct cs1 as [|c r].
      * exists 1%nat, m, M, [], p. split; [|split; [|split; [|split; [|split]]]]; auto.
        -- intros fuel Q. destruct fuel as [|fuel]; [lia|]. rewrite Unf. reflexivity.
        -- intro x. split; auto. intros [X|(d & D & Q & R)]; auto. apply HL in Q; auto. destruct Q as (k & [] & _).
        -- eapply Forall_impl; [|exact F]. cbn beta. intros; lia.
      * assert (Gc : ba b + 8 <= c) by (inversion G; auto). 
        pose proof (fun k => SS_min c r k S1) as Min.
        assert (Hit1 : hit cs b <-> c < ba b + bsz b).
        { rewrite (HL b (or_introl eq_refl)). split.
          - intros (k & I & Q). specialize (Min k I). lia.
          - intro Q. exists c. split; [left; auto|]. unfold ptr. lia. }
        assert (Mk : exists N1 m1 M1, (forall fuel, (N1 <= fuel)%nat -> (if c <? ba b + bsz b then Mark fuel m (ptr b) else Ok m) = Ok m1) /\ marking m0 L m1 M1 /\
            forall x, In x M1 <-> In x M \/ (c < ba b + bsz b /\ reach g (ptr b) x)).
        { destruct (c <? ba b + bsz b) eqn:Q.
          - destruct (mk_Mark m0 h L M0 H m M (ptr b) K) as (N1 & m1 & M1 & A1 & A2 & A3); [right; apply in_map; auto|]. exists N1, m1, M1. split; auto. split; auto. intro x. rewrite A3. fold g. split; [intros [X|X]; auto; right; split; auto; lia|intros [X|[_ X]]; auto].
          - exists 0%nat, m, M. split; auto. split; auto. intro x. split; auto. intros [X|[X _]]; auto. lia. }
        destruct Mk as (N1 & m1 & M1 & A1 & A2 & A3). destruct (e <=? c) eqn:Ec.
        -- exists (Datatypes.S (Datatypes.S N1)), m1, M1, (c :: r), p. split; [|split; [|split; [|split; [|split]]]]; auto.
           ++ intros fuel Q. destruct fuel as [|fuel]; [lia|]. rewrite Unf. rewrite A1 by lia. rewrite bind_ok. destruct fuel as [|fuel]; [lia|]. cbn [mc_blocks]. replace (e <? e) with false by lia. reflexivity.
           ++ intro x. rewrite A3. split; [intros [X|[X _]]; auto; lia|]. intros [X|(d & D & Q & R)]; auto. apply HL in Q; auto. destruct Q as (k & I & Q). specialize (Min k I). destruct D as [<-|D]; [lia|]. destruct (Later d D). lia.
           ++ eapply Forall_impl; [|exact F]. cbn beta. intros; lia.
        -- destruct (IH (ba b + bsz b) e (c :: r) m1 M1 BI' T A2 S1) as (N & m' & M' & cs' & p' & B1 & B2 & B3 & B4 & B5 & B6).
           exists (Datatypes.S (N1 + N)), m', M', cs', (p ++ p'). split; [|split; [|split; [|split; [|split]]]]; auto.
           ++ intros fuel Q. destruct fuel as [|fuel]; [lia|]. rewrite Unf. rewrite A1 by lia. rewrite bind_ok. apply B1. lia.
           ++ intro x. rewrite B3, A3. split.
              ** intros [[X|[X R]]|(d & D & Q & R)]; auto; right; [exists b; split; [left; auto|]; split; auto; apply Hit1; auto|exists d; split; [right; auto|]; split; auto; apply HL; [right|]; auto].
              ** intros [X|(d & [<-|D] & Q & R)]; auto; [left; right; split; auto; apply Hit1; auto|right; exists d; split; auto; split; auto; apply (HL d (or_intror D)); auto].
           ++ rewrite <- app_assoc. congruence.
           ++ apply Forall_app. split; auto. eapply Forall_impl; [|exact F]. cbn beta. intros; lia.
Qed.

Lemma mc_chunks_spec : forall Ls lo chnk cs m M, (forall c, In c Ls -> In c L) -> chained m0 chnk Ls -> placed lo Ls -> 0 < lo -> marking m0 L m M -> StronglySorted Z.le cs ->
  exists N m' M', (forall fuel, (N <= fuel)%nat -> mc_chunks fuel m chnk cs = Ok m') /\ marking m0 L m' M' /\
    (forall x, In x M' <-> In x M \/ exists b, In b (blocks Ls) /\ hit cs b /\ reach g (ptr b) x).
Proof.
  induction Ls as [|c Ls IH]; intros lo chnk cs m M CI C T Lo K S; cbn [chained placed] in *.
  - exists 1%nat, m, M. split; [|split; auto].
    + intros fuel F. destruct fuel as [|fuel]; [lia|]. cbn [mc_chunks]. subst chnk. reflexivity.
    + intro x. split; auto. intros [X|(b & [] & _)]; auto.
  - destruct C as (-> & C1 & nx & C2 & C3). destruct T as (T1 & T0 & T2 & T3 & T4). pose proof (tiles_le _ _ _ T3) as Te.
    assert (CL : In c L) by (apply CI; left; auto).
    destruct (mc_blocks_spec (cb c) (ca c + 24) (ce c) cs m M) as (N1 & m1 & M1 & cs1 & p & A1 & A2 & A3 & A4 & A5 & A6); auto.
    { intros b B. apply in_blocks. exists c. auto. }
    assert (E1 : m (ca c + 8) = Some (ce c)) by (rewrite (mk_hdr m0 h L M0 H m M c (ca c + 8) K CL) by lia; auto).
    assert (E2 : m1 (ca c) = Some nx) by (rewrite (mk_hdr m0 h L M0 H m1 M1 c (ca c) A2 CL) by lia; auto).
    assert (HL : forall b, In b (blocks Ls) -> (hit cs b <-> hit cs1 b)).
    { intros b B. rewrite A4. apply hit_app. destruct (block_chunk _ _ _ T4 B) as (d & D & _ & Q & _). destruct (placed_ge _ _ _ T4 D) as (Q2 & _). eapply Forall_impl; [|exact A5]. cbn beta. unfold ptr. intros; lia. }
    assert (Sp : forall x, (exists b, In b (blocks (c :: Ls)) /\ hit cs b /\ reach g (ptr b) x) <-> (exists b, In b (cb c) /\ hit cs b /\ reach g (ptr b) x) \/ exists b, In b (blocks Ls) /\ hit cs1 b /\ reach g (ptr b) x).
    { intro x. unfold blocks at 1. cbn [flat_map]. split.
      - intros (b & B & Q & R). apply in_app_or in B. destruct B as [B|B]; [left; eauto|right; exists b; split; auto; split; auto; apply HL; auto].
      - intros [(b & B & Q & R)|(b & B & Q & R)]; exists b; (split; [apply in_or_app; auto|]; split; auto). apply HL; auto. }
    destruct cs1 as [|c1 r1].
    + exists (Datatypes.S N1), m1, M1. split; [|split; auto].
      * intros fuel F. destruct fuel as [|fuel]; [lia|]. cbn [mc_chunks]. replace (ca c =? 0) with false by lia. rewrite (get_ok _ _ _ E1), bind_ok. rewrite A1 by lia. rewrite bind_ok. reflexivity.
      * intro x. rewrite A3, Sp. split; [intros [X|X]; auto|]. intros [X|[X|(b & _ & (k & [] & _) & _)]]; auto.
    + destruct (IH (ce c) nx (c1 :: r1) m1 M1) as (N2 & m2 & M2 & B1 & B2 & B3); auto; [intros; apply CI; right; auto|lia|].
      exists (Datatypes.S (N1 + N2)), m2, M2. split; [|split; auto].
      * intros fuel F. destruct fuel as [|fuel]; [lia|]. cbn [mc_chunks]. replace (ca c =? 0) with false by lia. rewrite (get_ok _ _ _ E1), bind_ok. rewrite A1 by lia. rewrite bind_ok. rewrite (get_ok _ _ _ E2), bind_ok. apply B1. lia.
      * intro x. rewrite B3, A3, Sp. tauto.
Qed.

Lemma ix_sorted : forall a, (forall i j, 0 <= i <= j -> j < zlen a -> ix a i <= ix a j) -> StronglySorted Z.le a.
Proof.
  induction a as [|x a IH]; intro Q; constructor.
  - apply IH. intros i j Hi Hj. specialize (Q (i + 1) (j + 1) ltac:(lia)). rewrite zlen_cons in Q. specialize (Q ltac:(lia)). rewrite !ix_cons in Q by lia. replace (i + 1 - 1) with i in Q by lia. replace (j + 1 - 1) with j in Q by lia. auto.
  - apply Forall_forall. intros y Y. apply In_nth with (d := 0) in Y. destruct Y as (n & N & E). specialize (Q 0 (Z.of_nat n + 1) ltac:(lia)). rewrite zlen_cons in Q. specialize (Q ltac:(unfold zlen; lia)).
    rewrite ix_cons0, ix_cons in Q by lia. replace (Z.of_nat n + 1 - 1) with (Z.of_nat n) in Q by lia. unfold ix in Q. rewrite Nat2Z.id in Q. lia.
Qed.
Lemma hit_perm : forall a a' b, Permutation a a' -> (hit a b <-> hit a' b).
Proof. intros a a' b Q. unfold hit. split; intros (c & I & R); exists c; split; auto; [eapply Permutation_in; eauto|eapply Permutation_in; [apply Permutation_sym|]; eauto]. Qed.

Lemma flush_spec : forall cand m M, marking m0 L m M ->
  exists N m' M', (forall fuel, (N <= fuel)%nat -> flush fuel h m cand = Ok m') /\ marking m0 L m' M' /\
    (forall x, In x M' <-> In x M \/ exists b, In b (blocks L) /\ hit cand b /\ reach g (ptr b) x).
Proof.
  intros cand m M K. pose proof (zlen_nonneg _ cand).
  destruct (HeapSort_spec (zlen cand) cand (S (Z.to_nat (2 * zlen cand + 2)))) as (a & _ & A2 & A3 & A4 & A5); [lia|lia|].
  assert (St : StronglySorted Z.le a) by (apply ix_sorted; intros; apply A3; lia).
  destruct (mc_chunks_spec L 1 h a m M) as (N & m' & M' & B1 & B2 & B3); auto; try lia; [apply (ho_chain _ _ _ _ H)|].
  exists (S (Z.to_nat (2 * zlen cand + 2)) + N)%nat, m', M'. split; [|split; auto].
  - intros fuel F. unfold flush. destruct (HeapSort_spec (zlen cand) cand fuel) as (a' & C1 & C2 & C3 & C4 & C5); [lia|lia|]. rewrite C1, bind_ok.
    assert (a' = a) by (apply SS_unique; [apply ix_sorted; intros; apply C3; lia|auto|eapply Permutation_trans; [apply Permutation_sym; exact C4|exact A4]]).
    subst a'. apply B1. lia.
  - intro x. rewrite B3. split; (intros [X|(b & B & Q & R)]; auto; right; exists b; split; auto; split; auto).
    + apply (hit_perm cand a); auto.
    + apply (hit_perm cand a); auto.
Qed.

Lemma hit_split : forall p q b, hit (p ++ q) b <-> hit p b \/ hit q b.
Proof.
  intros p q b. unfold hit. split.
  - intros (c & I & Q). apply in_app_or in I. destruct I; [left|right]; eauto.
  - intros [(c & I & Q)|(c & I & Q)]; exists c; split; auto; apply in_or_app; auto.
Qed.
Lemma ms_loop_spec : forall cap hmin hmax ws cand m M, (forall b, In b (blocks L) -> hmin <= ptr b /\ ba b + bsz b <= hmax) -> 0 < cap -> marking m0 L m M ->
  exists N m' M', (forall fuel, (N <= fuel)%nat -> ms_loop fuel cap h hmin hmax m cand ws = Ok m') /\ marking m0 L m' M' /\
    (forall x, In x M' <-> In x M \/ exists b, In b (blocks L) /\ hit (cand ++ ws) b /\ reach g (ptr b) x).
Proof.
  intros cap hmin hmax ws. induction ws as [|p ws IH]; intros cand m M Rg Cp K.
  - destruct (zlen cand >? 0) eqn:E.
    + destruct (flush_spec cand m M K) as (N & m' & M' & A1 & A2 & A3). exists N, m', M'. rewrite app_nil_r. split; [|split; auto]. intros fuel F. cbn [ms_loop]. rewrite E. auto.
    + exists 0%nat, m, M. split; [intros fuel F; cbn [ms_loop]; rewrite E; reflexivity|]. split; auto. intro x. split; auto. intros [X|(b & _ & (k & I & _) & _)]; auto.
      destruct cand as [|z cand]; [destruct I|]. rewrite zlen_cons in E. pose proof (zlen_nonneg _ cand). lia.
  - destruct ((hmin <=? p) && (p <? hmax)) eqn:E.
    + destruct (zlen cand =? cap) eqn:E2.
      * destruct (flush_spec cand m M K) as (N1 & m1 & M1 & A1 & A2 & A3). destruct (IH [p] m1 M1 Rg Cp A2) as (N2 & m2 & M2 & B1 & B2 & B3). exists (N1 + N2)%nat, m2, M2. split; [|split; auto].
        -- intros fuel F. cbn [ms_loop]. rewrite E, E2. rewrite A1 by lia. rewrite bind_ok. apply B1. lia.
        -- intro x. rewrite B3, A3. setoid_rewrite (hit_split cand (p :: ws)). cbn [app]. split.
           ++ intros [[X|(b & B & Q & R)]|(b & B & Q & R)]; auto; right; exists b; auto.
           ++ intros [X|(b & B & [Q|Q] & R)]; auto; [left; right; eauto|right; eauto].
      * destruct (IH (cand ++ [p]) m M Rg Cp K) as (N & m' & M' & A1 & A2 & A3). exists N, m', M'. split; [|split; auto].
        -- intros fuel F. cbn [ms_loop]. rewrite E, E2. auto.
        -- intro x. rewrite A3. rewrite <- app_assoc. reflexivity.
    + destruct (IH cand m M Rg Cp K) as (N & m' & M' & A1 & A2 & A3). exists N, m', M'. split; [|split; auto].
      * intros fuel F. cbn [ms_loop]. rewrite E. auto.
      * intro x. rewrite A3. split; (intros [X|(b & B & Q & R)]; auto; right; exists b; split; auto; split; auto).
        -- apply hit_split in Q. apply hit_split. destruct Q as [Q|(k & I & Q)]; auto. right. exists k. split; auto. right; auto.
        -- apply hit_split in Q. apply hit_split. destruct Q as [Q|(k & [<-|I] & Q)]; auto; [destruct (Rg b B); lia|]. right. exists k. auto.
Qed.
End MC.
