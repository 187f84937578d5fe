(** Proofs about resources. *)
From Verif Require Import Base ResrcModel ResrcSpec.
Definition terminated := ResrcModel.terminated.

Lemma bok : forall A B (a : A) (k : A -> res B), bind (Ok a) k = k a. Proof. reflexivity. Qed.
Lemma vk_set : forall l k r q, nth_error l k = Some (true, r) -> valid_keys (set_nth k (false, r) l) q = valid_keys l q - (if (r =? q)%nat then 1 else 0).
Proof.
  induction l as [|[v x] l IH]; intros [|k] r q H; cbn in *; try discriminate.
  - injection H as -> ->. cbn. destruct (r =? q)%nat; lia.
  - rewrite (IH k r q H). lia.
Qed.
Lemma vk_app : forall l m q, valid_keys (l ++ m) q = valid_keys l q + valid_keys m q. Proof. induction l as [|[v x] l IH]; intros m q; cbn; [lia|]. rewrite IH. lia. Qed.
Lemma take_out_some : forall d l, In d l -> NoDup l -> exists l', take_out d l = Some l' /\ NoDup l' /\ forall x, In x l' <-> In x l /\ x <> d.
Proof.
  intros d l. induction l as [|y l IH]; intros I N; [destruct I|]. cbn [take_out]. inversion N as [|? ? NI ND]; subst. destruct (y =? d)%nat eqn:E.
  - apply Nat.eqb_eq in E. subst y. exists l. split; [reflexivity|]. split; [exact ND|]. intros x. cbn. split; [intros X; split; [auto|congruence]|intros [[X|X] Q]; [congruence|exact X]].
  - apply Nat.eqb_neq in E. destruct I as [I|I]; [congruence|]. destruct (IH I ND) as (l' & -> & N' & H). exists (y :: l'). split; [reflexivity|]. split; [constructor; [rewrite H; tauto|exact N']|].
    intros x. cbn. rewrite H. split; [intros [->|X]; [auto|tauto]|intros [[X|X] Q]; [auto|tauto]].
Qed.

Section ranks.
Variable rank : nat -> nat.
(** The members of X are being unlinked. *)
Record inv (X : list nat) (w : world) : Prop := {
  i_cnt : forall r, refcnt (discs w r) = valid_keys (keys w) r;
  i_link : forall d r, ~ In d X -> (In d (dependants (discs w r)) <-> dependsOn (discs w d) = Some r);
  i_out : forall d r, In d X -> ~ In d (dependants (discs w r));
  i_dup : forall r, NoDup (dependants (discs w r));
  i_key : forall d r, ~ In d X -> dependsOn (discs w d) = Some r -> exists k, key (discs w d) = Some k /\ nth_error (keys w) k = Some (true, r);
  i_none : forall d, ~ In d X -> dependsOn (discs w d) = None -> key (discs w d) = None;
  i_inj : forall d e k, key (discs w d) = Some k -> key (discs w e) = Some k -> d = e;
  i_rank : forall d r, dependsOn (discs w d) = Some r -> (rank r < rank d)%nat }.
Definition frame (n : nat) (w w' : world) : Prop :=
  length (keys w') = length (keys w) /\
  forall q, stopped (discs w' q) = stopped (discs w q) /\ (state (discs w' q) = state (discs w q) \/ state (discs w q) <> terminated /\ state (discs w' q) = unreferenced /\ (rank q <= n)%nat) /\
    (key (discs w' q) = key (discs w q) \/ key (discs w' q) = None) /\ ((n < rank q)%nat -> discs w' q = discs w q) /\ ((n <= rank q)%nat -> dependants (discs w' q) = dependants (discs w q)).
Lemma frame_refl : forall n w, frame n w w.
Proof. intros n w. split; [reflexivity|]. intros q. split; [reflexivity|]. split; [auto|]. split; [auto|]. auto. Qed.
Definition detach_good (f : nat) : Prop := forall w r k X, inv X w -> (forall x, In x X -> (rank r < rank x)%nat) -> (forall d, ~ In d X -> key (discs w d) <> Some k) -> (k < length (keys w))%nat -> (rank r < f)%nat ->
  exists w', Detach f w r (Some k) = Ok w' /\ inv X w' /\ frame (rank r) w w'.
Lemma upd_same : forall w r d, discs (upd w r d) r = d. Proof. intros. unfold upd. cbn [discs]. rewrite Nat.eqb_refl. reflexivity. Qed.
Lemma upd_other : forall w r d q, q <> r -> discs (upd w r d) q = discs w q. Proof. intros w r d q N. unfold upd. cbn [discs]. apply Nat.eqb_neq in N. rewrite N. reflexivity. Qed.
Ltac byq q r := let H := fresh "HQ" in destruct (Nat.eq_dec q r) as [H|H]; [rewrite ?H in *; rewrite ?upd_same in *|rewrite ?(upd_other _ _ _ q H) in *].
(** The invariant looks only at these fields. *)
Lemma inv_links : forall X w w', inv X w -> keys w' = keys w -> (forall q, refcnt (discs w' q) = refcnt (discs w q) /\ dependants (discs w' q) = dependants (discs w q) /\ dependsOn (discs w' q) = dependsOn (discs w q) /\ key (discs w' q) = key (discs w q)) -> inv X w'.
Proof.
  intros X w w' [] K H. assert (H1 := fun q => proj1 (H q)). assert (H2 := fun q => proj1 (proj2 (H q))). assert (H3 := fun q => proj1 (proj2 (proj2 (H q)))). assert (H4 := fun q => proj2 (proj2 (proj2 (H q)))).
  constructor; intros *; rewrite ?K, ?H1, ?H2, ?H3, ?H4; eauto.
Qed.
Lemma unlink_ok : forall f w d p X, detach_good f -> inv X w -> ~ In d X -> dependsOn (discs w d) = Some p -> (forall x, In x X -> (rank d < rank x)%nat) -> (rank p < f)%nat ->
  exists w', Unlink (Detach f) w d p = Ok w' /\ inv X w' /\ length (keys w') = length (keys w) /\
    (forall q, stopped (discs w' q) = stopped (discs w q) /\ (state (discs w' q) = state (discs w q) \/ state (discs w q) <> terminated /\ state (discs w' q) = unreferenced /\ (rank q < rank d)%nat) /\
      (key (discs w' q) = key (discs w q) \/ key (discs w' q) = None) /\ (q <> d -> (rank d <= rank q)%nat -> discs w' q = discs w q) /\ ((rank d <= rank q)%nat -> dependants (discs w' q) = dependants (discs w q))).
Proof.
  intros f w d p X G I ND DP RX RF. pose proof I as [I1 I2 I3 I4 I5 I6 I7 I8]. pose proof (I8 d p DP) as RP. assert (NE : p <> d) by (intros ->; lia). unfold Unlink. destruct (state (discs w p) =? ResrcModel.terminated) eqn:E.
  - exists w. split; [reflexivity|]. split; [exact I|]. split; [reflexivity|]. intros q. auto 10.
  - destruct (take_out_some d (dependants (discs w p)) (proj2 (I2 d p ND) DP) (I4 p)) as (l & -> & NL & HL).
    set (w1 := upd w p (with_dependants (discs w p) l)).
    assert (F1 : forall q, refcnt (discs w1 q) = refcnt (discs w q) /\ dependsOn (discs w1 q) = dependsOn (discs w q) /\ key (discs w1 q) = key (discs w q) /\ state (discs w1 q) = state (discs w q) /\ stopped (discs w1 q) = stopped (discs w q)).
    { intros q. unfold w1. byq q p; auto. }
    assert (D1 : forall q x, In x (dependants (discs w1 q)) <-> In x (dependants (discs w q)) /\ (q = p -> x <> d)).
    { intros q x. unfold w1. byq q p; [cbn [with_dependants dependants]; rewrite HL; tauto|tauto]. }
    assert (I' : inv (d :: X) w1).
    { constructor.
      - intros r. rewrite (proj1 (F1 r)). apply I1.
      - intros e r NI. rewrite D1. rewrite (proj1 (proj2 (F1 e))). rewrite I2 by (intros Q; apply NI; right; exact Q). split; [tauto|]. intros Q. split; [exact Q|]. intros _ ->. apply NI. left. reflexivity.
      - intros e r [<-|Q]; rewrite D1.
        + intros [Q1 Q2]. apply (I2 d r ND) in Q1. assert (r = p) by congruence. subst r. apply (Q2 eq_refl). reflexivity.
        + intros [Q1 _]. exact (I3 e r Q Q1).
      - intros r. unfold w1. byq r p; [exact NL|apply I4].
      - intros e r NI. rewrite (proj1 (proj2 (F1 e))), (proj1 (proj2 (proj2 (F1 e)))). apply I5. intros Q. apply NI. right. exact Q.
      - intros e NI. rewrite (proj1 (proj2 (F1 e))), (proj1 (proj2 (proj2 (F1 e)))). apply I6. intros Q. apply NI. right. exact Q.
      - intros e e' k. rewrite (proj1 (proj2 (proj2 (F1 e)))), (proj1 (proj2 (proj2 (F1 e')))). apply I7.
      - intros e r. rewrite (proj1 (proj2 (F1 e))). apply I8. }
    rewrite (proj1 (proj2 (F1 d))), DP. destruct (I5 d p ND DP) as (k & KD & KV). rewrite (proj1 (proj2 (proj2 (F1 d)))), KD.
    destruct (G w1 p k (d :: X) I') as (w2 & -> & I2' & L2 & FR).
    { intros x [<-|Q]; [exact RP|]. specialize (RX x Q). lia. }
    { intros e NI Q. rewrite (proj1 (proj2 (proj2 (F1 e)))) in Q. apply NI. left. exact (I7 d e k KD Q). }
    { apply nth_error_Some. cbn. rewrite KV. discriminate. } { exact RF. }
    rewrite bok. eexists. split; [reflexivity|]. pose proof I2' as [J1 J2 J3 J4 J5 J6 J7 J8].
    set (w3 := upd w2 d (with_link (discs w2 d) None None)).
    assert (F3 : forall q, refcnt (discs w3 q) = refcnt (discs w2 q) /\ dependants (discs w3 q) = dependants (discs w2 q) /\ state (discs w3 q) = state (discs w2 q) /\ stopped (discs w3 q) = stopped (discs w2 q)) by (intros q; unfold w3; byq q d; auto).
    split; [|split; [cbn; exact L2|]].
    { constructor.
      - intros r. rewrite (proj1 (F3 r)). apply J1.
      - intros e r NI. rewrite (proj1 (proj2 (F3 r))). unfold w3. destruct (Nat.eq_dec e d) as [->|Q].
        + rewrite upd_same. cbn. split; [intros Q; destruct (J3 d r ltac:(left; reflexivity) Q)|discriminate].
        + rewrite upd_other by exact Q. apply J2. intros [Q2|Q2]; [congruence|contradiction].
      - intros e r Q. rewrite (proj1 (proj2 (F3 r))). apply J3. right. exact Q.
      - intros r. rewrite (proj1 (proj2 (F3 r))). apply J4.
      - intros e r NI. unfold w3. destruct (Nat.eq_dec e d) as [->|Q]; [rewrite upd_same; discriminate|]. rewrite upd_other by exact Q. apply J5. intros [Q2|Q2]; [congruence|contradiction].
      - intros e NI. unfold w3. destruct (Nat.eq_dec e d) as [->|Q]; [rewrite upd_same; reflexivity|]. rewrite upd_other by exact Q. apply J6. intros [Q2|Q2]; [congruence|contradiction].
      - intros e e' k'. unfold w3. destruct (Nat.eq_dec e d) as [->|Q]; [rewrite upd_same; discriminate|]. rewrite (upd_other _ _ _ e Q). destruct (Nat.eq_dec e' d) as [->|Q']; [rewrite upd_same; discriminate|]. rewrite (upd_other _ _ _ e' Q'). apply J7.
      - intros e r. unfold w3. destruct (Nat.eq_dec e d) as [->|Q]; [rewrite upd_same; discriminate|]. rewrite upd_other by exact Q. apply J8. }
    intros q. destruct (FR q) as (S1 & S2 & S3 & S4 & S5). rewrite (proj1 (proj2 (F3 q))), (proj1 (proj2 (proj2 (F3 q)))), (proj2 (proj2 (proj2 (F3 q)))). destruct (F1 q) as (_ & _ & K1 & T1 & P1). rewrite S1, P1. rewrite T1 in S2. rewrite K1 in S3.
    split; [reflexivity|]. split; [destruct S2 as [S2|(Q1 & Q2 & Q3)]; [left; exact S2|right; split; [exact Q1|split; [exact Q2|lia]]]|]. split; [unfold w3; byq q d; [right; reflexivity|exact S3]|]. split.
    + intros Q R. unfold w3. rewrite upd_other by exact Q. rewrite S4 by lia. unfold w1. apply upd_other. intros ->. lia.
    + intros R. rewrite S5 by lia. unfold w1. rewrite upd_other; [reflexivity|]. intros ->. lia.
Qed.
Lemma detach_ok : forall f, detach_good f.
Proof.
  induction f as [|f IH]; intros w r k X I RX HK LK RF; [lia|]. cbn [Detach]. destruct (nth_error (keys w) k) as [[v kr]|] eqn:EK; [|apply nth_error_None in EK; lia].
  destruct (v && (kr =? r)%nat) eqn:EV; [|exists w; split; [reflexivity|]; split; [exact I|apply frame_refl]]. destruct (negb (state (discs w r) =? ResrcModel.terminated)) eqn:ES; [|exists w; split; [reflexivity|]; split; [exact I|apply frame_refl]].
  destruct v; [|discriminate]. apply Nat.eqb_eq in EV. subst kr. pose proof I as [I1 I2 I3 I4 I5 I6 I7 I8].
  set (w0 := {| discs := discs w; keys := set_nth k (false, r) (keys w) |}). set (w1 := upd w0 r (with_refcnt (discs w0 r) (refcnt (discs w0 r) - 1))).
  assert (F1 : forall q, dependants (discs w1 q) = dependants (discs w q) /\ dependsOn (discs w1 q) = dependsOn (discs w q) /\ key (discs w1 q) = key (discs w q) /\ state (discs w1 q) = state (discs w q) /\ stopped (discs w1 q) = stopped (discs w q) /\ (q <> r -> discs w1 q = discs w q)).
  { intros q. unfold w1. byq q r; cbn; auto 10. repeat split. congruence. }
  assert (I' : inv X w1).
  { constructor.
    - intros q. change (keys w1) with (set_nth k (false, r) (keys w)). rewrite (vk_set _ _ _ q EK). unfold w1. byq q r; cbn [with_refcnt refcnt w0 discs].
      + rewrite I1, Nat.eqb_refl. reflexivity.
      + rewrite I1. replace (r =? q)%nat with false by (symmetry; apply Nat.eqb_neq; congruence). lia.
    - intros d q. rewrite (proj1 (F1 q)), (proj1 (proj2 (F1 d))). apply I2.
    - intros d q. rewrite (proj1 (F1 q)). apply I3.
    - intros q. rewrite (proj1 (F1 q)). apply I4.
    - intros d q NI. rewrite (proj1 (proj2 (F1 d))), (proj1 (proj2 (proj2 (F1 d)))). intros Q. destruct (I5 d q NI Q) as (k' & Q1 & Q2). exists k'. split; [exact Q1|]. change (keys w1) with (set_nth k (false, r) (keys w)).
      rewrite nth_set_nth_neq; [exact Q2|]. intros ->. exact (HK d NI Q1).
    - intros d NI. rewrite (proj1 (proj2 (F1 d))), (proj1 (proj2 (proj2 (F1 d)))). apply I6. exact NI.
    - intros d e k'. rewrite (proj1 (proj2 (proj2 (F1 d)))), (proj1 (proj2 (proj2 (F1 e)))). apply I7.
    - intros d q. rewrite (proj1 (proj2 (F1 d))). apply I8. }
  assert (L1 : length (keys w1) = length (keys w)) by apply set_nth_length.
  assert (FR1 : frame (rank r) w w1).
  { split; [exact L1|]. intros q. destruct (F1 q) as (A & B & C & D & E & F). rewrite A, C, D, E. split; [reflexivity|]. split; [auto|]. split; [auto|]. split; [intros Q; apply F; intros ->; lia|reflexivity]. }
  destruct (refcnt (discs w1 r) =? 0); [|exists w1; auto].
  set (w2 := upd w1 r (with_state (discs w1 r) unreferenced)). assert (I2' : inv X w2) by (apply (inv_links X w1 w2 I' eq_refl); intros q; unfold w2; byq q r; cbn; auto).
  assert (F2 : forall q, dependants (discs w2 q) = dependants (discs w q) /\ key (discs w2 q) = key (discs w q) /\ stopped (discs w2 q) = stopped (discs w q) /\ (q <> r -> discs w2 q = discs w q)).
  { intros q. destruct (F1 q) as (A & B & C & D & E & F). unfold w2. byq q r; cbn; [repeat split; auto; congruence|]. auto. }
  assert (S2 : state (discs w2 r) = unreferenced) by (unfold w2; rewrite upd_same; reflexivity).
  assert (FR2 : frame (rank r) w w2).
  { split; [exact L1|]. intros q. destruct (F2 q) as (A & B & C & F). rewrite A, B, C. split; [reflexivity|]. split; [|split; [auto|split; [intros Q; apply F; intros ->; lia|reflexivity]]].
    destruct (Nat.eq_dec q r) as [->|Q]; [right; split; [unfold terminated; lia|split; [exact S2|lia]]|left; rewrite F by exact Q; reflexivity]. }
  destruct (dependsOn (discs w2 r)) as [p|] eqn:EP; [|exists w2; auto]. assert (NR : ~ In r X) by (intros Q; specialize (RX r Q); lia).
  pose proof (i_rank _ _ I2' r p EP) as RP. destruct (unlink_ok f w2 r p X IH I2' NR EP RX ltac:(lia)) as (w3 & E3 & I3' & L3 & H3). exists w3. split; [exact E3|]. split; [exact I3'|]. split; [rewrite L3; exact L1|].
  intros q. destruct (H3 q) as (A & B & C & D & E). destruct (F2 q) as (A2 & B2 & C2 & F). rewrite A, C2. split; [reflexivity|]. split.
  - destruct (Nat.eq_dec q r) as [->|Q].
    + right. split; [unfold terminated; lia|]. split; [|lia]. destruct B as [B|(_ & B & _)]; [congruence|exact B].
    + rewrite (F Q) in B. destruct B as [B|(B1 & B2' & B3)]; [left; exact B|right; split; [exact B1|split; [exact B2'|lia]]].
  - rewrite B2 in C. split; [exact C|]. split; [intros Q; assert (q <> r) by (intros ->; lia); rewrite D by (auto; lia); apply F; assumption|intros Q; rewrite E by exact Q; exact A2].
Qed.

(** ** Notifications *)
Definition chg (c : Z) (d : disc) : disc := if c =? communicationResumed then with_stopped d false else if c =? communicationStopped then with_stopped d true
      else if c =? ResrcModel.terminated then with_state (with_stopped d false) ResrcModel.terminated else d.
Lemma chg_idem : forall c d, chg c (chg c d) = chg c d. Proof. intros c d. unfold chg. destruct (c =? communicationResumed), (c =? communicationStopped), (c =? ResrcModel.terminated); reflexivity. Qed.
Lemma chg_links : forall c d, refcnt (chg c d) = refcnt d /\ dependants (chg c d) = dependants d /\ dependsOn (chg c d) = dependsOn d /\ key (chg c d) = key d.
Proof. intros c d. unfold chg. destruct (c =? communicationResumed), (c =? communicationStopped), (c =? ResrcModel.terminated); cbn; auto. Qed.
Lemma chg_term : forall c d, state d = terminated -> state (chg c d) = terminated. Proof. intros c d H. unfold chg. destruct (c =? communicationResumed), (c =? communicationStopped), (c =? ResrcModel.terminated); cbn; auto. Qed.
Definition D (w : world) : nat -> list nat := fun q => dependants (discs w q).
Definition links (w w' : world) : Prop := keys w' = keys w /\ forall q, refcnt (discs w' q) = refcnt (discs w q) /\ dependants (discs w' q) = dependants (discs w q) /\ dependsOn (discs w' q) = dependsOn (discs w q) /\ key (discs w' q) = key (discs w q).
Lemma links_trans : forall a b c, links a b -> links b c -> links a c.
Proof. intros a b c [A1 A2] [B1 B2]. split; [congruence|]. intros q. destruct (A2 q) as (? & ? & ? & ?), (B2 q) as (? & ? & ? & ?). repeat split; congruence. Qed.
Lemma below_ext : forall D1 D2 r q, (forall x, D1 x = D2 x) -> below D1 r q -> below D2 r q.
Proof. intros D1 D2 r q E H. induction H; [constructor|]. apply below_step with c; [rewrite <- E; assumption|assumption]. Qed.
Definition told (r : nat) (c : Z) (w w' : world) : Prop :=
  links w w' /\ (forall q, below (D w) r q -> discs w' q = chg c (discs w q)) /\ (forall q, discs w' q = discs w q \/ below (D w) r q /\ discs w' q = chg c (discs w q)).
Variable N : nat.
Variable bounded : forall q, (rank q < N)%nat.
Definition nested_good (g f : nat) (c : Z) : Prop := forall w r, inv [] w -> (N <= rank r + f)%nat -> (c = terminated -> forall p, dependsOn (discs w r) = Some p -> state (discs w p) = terminated) ->
  exists w', InternalNotify g f w r c = Ok w' /\ told r c w w'.
Lemma each_ok : forall g f c w r, nested_good g f c -> inv [] w -> (N <= rank r + S f)%nat -> forall l u, incl l (D w r) -> links w u ->
  (forall q, discs u q = discs w q \/ below (D w) r q /\ discs u q = chg c (discs w q)) -> discs u r = chg c (discs w r) ->
  exists w', each (fun w x => InternalNotify g f w x c) l u = Ok w' /\ links w w' /\ (forall q, discs w' q = discs w q \/ below (D w) r q /\ discs w' q = chg c (discs w q)) /\
    (forall x q, In x l -> below (D w) x q -> discs w' q = chg c (discs w q)) /\ (forall q, discs u q = chg c (discs w q) -> discs w' q = chg c (discs w q)).
Proof.
  intros g f c w r G I B l. induction l as [|x l IH]; intros u LI LK BU UR.
  - exists u. split; [reflexivity|]. split; [exact LK|]. split; [exact BU|]. split; [intros x q []|auto].
  - cbn [each]. assert (XI : In x (D w r)) by (apply LI; left; reflexivity). assert (XD : dependsOn (discs w x) = Some r) by (apply (i_link _ _ I x r); [intros []|exact XI]). pose proof (i_rank _ _ I x r XD) as XR.
    pose proof LK as [LK1 LK2]. assert (IU : inv [] u) by (apply (inv_links [] w u I LK1 LK2)).
    destruct (G u x IU ltac:(lia)) as (u1 & -> & L1 & A1 & B1).
    { intros -> p Q. rewrite (proj1 (proj2 (proj2 (LK2 x)))), XD in Q. injection Q as <-. rewrite UR. reflexivity. }
    rewrite bok. assert (DE : forall y, D u y = D w y) by (intros y; apply (LK2 y)). assert (DE' : forall y, D w y = D u y) by (intros y; symmetry; apply DE).
    assert (Keep : forall q, discs u q = chg c (discs w q) -> discs u1 q = chg c (discs w q)).
    { intros q Q. destruct (B1 q) as [E|[_ E]]; rewrite E, Q; [reflexivity|apply chg_idem]. }
    assert (Bel : forall q, below (D w) x q -> discs u1 q = chg c (discs w q)).
    { intros q Q. rewrite (A1 q (below_ext _ _ _ _ DE' Q)). destruct (BU q) as [E|[_ E]]; rewrite E; [reflexivity|apply chg_idem]. }
    destruct (IH u1) as (w' & E & L' & B' & A' & K').
    { intros y Q. apply LI. right. exact Q. } { exact (links_trans _ _ _ LK L1). }
    { intros q. destruct (B1 q) as [E|[Q E]]; [rewrite E; apply BU|]. right. split; [apply below_step with x; [exact XI|exact (below_ext _ _ _ _ DE Q)]|]. apply Bel. exact (below_ext _ _ _ _ DE Q). }
    { apply Keep. exact UR. }
    exists w'. split; [exact E|]. split; [exact L'|]. split; [exact B'|]. split.
    + intros y q [<-|Q] R; [apply K', Bel; exact R|exact (A' y q Q R)].
    + intros q Q. apply K', Keep, Q.
Qed.
Lemma body_ok : forall g f c w r, nested_good g f c -> inv [] w -> (N <= rank r + S f)%nat -> let w1 := upd w r (chg c (discs w r)) in
  exists w', each (fun w x => InternalNotify g f w x c) (dependants (discs w1 r)) w1 = Ok w' /\ told r c w w'.
Proof.
  intros g f c w r G I B w1. assert (LK : links w w1) by (split; [reflexivity|]; intros q; unfold w1; byq q r; [apply chg_links|auto]).
  assert (UR : discs w1 r = chg c (discs w r)) by apply upd_same. replace (dependants (discs w1 r)) with (D w r) by (rewrite UR; symmetry; apply chg_links).
  destruct (each_ok g f c w r G I B (D w r) w1) as (w' & E & L' & B' & A' & K'); [intros y Q; exact Q|exact LK| |exact UR|].
  { intros q. unfold w1. byq q r; [right; split; [constructor|reflexivity]|left; reflexivity]. }
  exists w'. split; [exact E|]. split; [exact L'|]. split; [|exact B']. intros q Q. inversion Q as [|? x ? XI XB]; subst; [apply K', UR|exact (A' x q XI XB)].
Qed.
Lemma inotify_eq : forall g f w r c, InternalNotify g (S f) w r c = let w1 := upd w r (chg c (discs w r)) in let* w := each (fun w x => InternalNotify g f w x c) (dependants (discs w1 r)) w1 in
    if c =? ResrcModel.terminated then match dependsOn (discs w r) with Some p => Unlink (Detach g) w r p | None => Ok w end else Ok w.
Proof. reflexivity. Qed.
Lemma nested_ok : forall g f c, nested_good g f c.
Proof.
  intros g f c. induction f as [|f IH]; intros w r I B P; [pose proof (bounded r); lia|]. rewrite inotify_eq. cbv zeta. destruct (body_ok g f c w r IH I B) as (w' & -> & T). rewrite bok. exists w'. split; [|exact T]. destruct (c =? ResrcModel.terminated) eqn:E; [|reflexivity].
  destruct (dependsOn (discs w' r)) as [p|] eqn:EP; [|reflexivity]. destruct T as ([_ L] & A & BB). rewrite (proj1 (proj2 (proj2 (L r)))) in EP. apply Z.eqb_eq in E. specialize (P E p EP). unfold Unlink.
  replace (state (discs w' p) =? ResrcModel.terminated) with true; [reflexivity|]. symmetry. apply Z.eqb_eq. destruct (BB p) as [Q|[_ Q]]; rewrite Q; [exact P|apply chg_term; exact P].
Qed.
(** What a notification does: the news reaches all that is below; afterwards a terminated resource lets its own resource go. *)
Definition after_notify (r : nat) (c : Z) (w w' : world) : Prop :=
  inv [] w' /\ length (keys w') = length (keys w) /\
  (forall q, below (D w) r q -> state (discs w' q) = state (chg c (discs w q)) /\ stopped (discs w' q) = stopped (chg c (discs w q))) /\
  (forall q, (state (discs w' q) = state (discs w q) \/ state (discs w q) <> terminated /\ state (discs w' q) = unreferenced) /\ stopped (discs w' q) = stopped (discs w q) \/ below (D w) r q) /\
  (forall q, key (discs w' q) = key (discs w q) \/ key (discs w' q) = None).
Lemma below_rank : forall w r q, inv [] w -> below (D w) r q -> (rank r <= rank q)%nat.
Proof. intros w r q I H. induction H as [|r c q IC H IH]; [lia|]. assert (dependsOn (discs w c) = Some r) by (apply (i_link _ _ I c r); [intros []|exact IC]). pose proof (i_rank _ _ I c r H0). lia. Qed.
Lemma inotify_ok : forall c w r, inv [] w -> exists w', InternalNotify N N w r c = Ok w' /\ after_notify r c w w'.
Proof.
  intros c w r I. pose proof (bounded r) as BR. assert (EN : exists f, N = S f) by (exists (pred N); lia). destruct EN as [f EN]. replace (InternalNotify N N w r c) with (InternalNotify N (S f) w r c) by (rewrite EN; reflexivity). rewrite inotify_eq. cbv zeta. destruct (body_ok N f c w r (nested_ok N f c) I ltac:(lia)) as (w' & -> & T). rewrite bok. pose proof T as ([LK L] & A & BB).
  assert (I' : inv [] w') by (apply (inv_links [] w w' I LK L)).
  assert (Plain : after_notify r c w w').
  { split; [exact I'|]. split; [rewrite LK; reflexivity|]. split; [intros q Q; rewrite (A q Q); auto|]. split; [intros q; destruct (BB q) as [->|[Q _]]; auto|]. intros q. left. apply (L q). }
  destruct (c =? ResrcModel.terminated) eqn:EC; [|exists w'; auto]. destruct (dependsOn (discs w' r)) as [p|] eqn:EP; [|exists w'; auto].
  pose proof (bounded p) as BP. destruct (unlink_ok N w' r p [] (detach_ok N) I' ltac:(intros []) EP ltac:(intros x []) ltac:(lia)) as (w2 & E2 & I2 & L2 & H2). exists w2. split; [exact E2|].
  split; [exact I2|]. split; [rewrite L2, LK; reflexivity|]. split; [|split].
  - intros q Q. destruct (H2 q) as (S1 & S2 & _ & _ & _). pose proof (below_rank w r q I Q). rewrite S1. destruct S2 as [S2|(_ & _ & S2)]; [rewrite S2, (A q Q); auto|lia].
  - intros q. destruct (H2 q) as (S1 & S2 & _ & _ & _). rewrite S1. destruct (BB q) as [E|[Q _]]; [|auto]. rewrite E in S2. left. split; [|rewrite E; reflexivity]. destruct S2 as [S2|(S2 & S3 & _)]; auto.
  - intros q. destruct (H2 q) as (_ & _ & S3 & _). rewrite <- (proj2 (proj2 (proj2 (L q)))). exact S3.
Qed.
End ranks.
