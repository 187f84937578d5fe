From Verif Require Import Base ArrZ HeapModel HeapSpec MarkProofs LayProofs SortProofs.

Lemma linked_frame : forall m m' l h, (forall a, In a l -> m' (a + 24) = m (a + 24)) -> linked m h l -> linked m' h l.
Proof.
  intros m m'. induction l as [|a l IH]; intros h F H; cbn [linked] in *; auto. destruct H as (A & B & nx & C & D). split; auto. split; auto. exists nx. rewrite F by (left; auto). split; auto.
  apply IH; auto. intros; apply F; right; auto.
Qed.
Definition push (ls : Z -> list Z) (f : blk) : Z -> list Z := fun i => if i =? cls (bsz f) then ba f :: ls i else ls i.
Lemma cls_range : forall k, 1 <= k -> 1 <= cls (32 * k) <= 9.
Proof. intros k K. unfold cls. replace (32 * k / 32) with k by (rewrite Z.mul_comm, Z.div_mul; lia). destruct (k <? 9) eqn:E; lia. Qed.
Lemma shiftr5 : forall k, Z.shiftr (32 * k) 5 = k.
Proof. intro k. rewrite Z.shiftr_div_pow2 by lia. change (2 ^ 5) with 32. rewrite Z.mul_comm, Z.div_mul; lia. Qed.

Lemma put_chain : forall m a v, m a <> None -> put m a v = Ok (upd m a v).
Proof. intros m a v H. unfold put. destruct (m a); congruence. Qed.
Lemma upd_dom : forall m a v b, m b <> None -> upd m a v b <> None.
Proof. intros m a v b H. unfold upd. destruct (b =? a); [discriminate|auto]. Qed.

Lemma collect_spec : forall st k (m : mem) fl bg ls, 1 <= k -> 0 < st -> lists m fl bg ls ->
  m st <> None -> m (st + 8) <> None -> m (st + 16) <> None -> m (st + 24) <> None ->
  (forall i a, 1 <= i <= 9 -> In a (ls i) -> a + 24 < st \/ st + 32 <= a + 24) ->
  exists m' fl' bg', collect (st + 32 * k) (32 * k) (m, fl, bg) = Ok (m', fl', bg') /\ lists m' fl' bg' (push ls (freeb st (32 * k))) /\
    words m' st [st + 8; 32 * k; -8] /\ (forall a, a < st \/ st + 32 <= a -> m' a = m a) /\ (forall a, m a <> None -> m' a <> None).
Proof.
  intros st k m fl bg ls K S Li D0 D1 D2 D3 Fr. unfold collect. replace (32 * k =? 0) with false by lia. replace (st + 32 * k - 32 * k) with st by lia.
  rewrite (put_chain _ _ _ D0), bind_ok. set (m1 := upd m st (st + 8)).
  assert (E1 : m1 (st + 8) <> None) by (apply upd_dom; auto). rewrite (put_chain _ _ _ E1), bind_ok. set (m2 := upd m1 (st + 8) (32 * k)).
  assert (E2 : m2 (st + 16) <> None) by (repeat apply upd_dom; auto). rewrite (put_chain _ _ _ E2), bind_ok. set (m3 := upd m2 (st + 16) (-8)).
  assert (E3 : m3 (st + 24) <> None) by (repeat apply upd_dom; auto). rewrite shiftr5.
  assert (W : forall v, words (upd m3 (st + 24) v) st [st + 8; 32 * k; -8]).
  { intro v. cbn [words]. unfold m3, m2, m1, upd. replace (st + 8 + 8) with (st + 16) by lia.
    replace (st =? st + 24) with false by lia. replace (st =? st + 16) with false by lia. replace (st =? st + 8) with false by lia. rewrite Z.eqb_refl.
    replace (st + 8 =? st + 24) with false by lia. replace (st + 8 =? st + 16) with false by lia. rewrite Z.eqb_refl.
    replace (st + 16 =? st + 24) with false by lia. rewrite Z.eqb_refl. auto. }
  assert (F : forall v a, a < st \/ st + 32 <= a -> upd m3 (st + 24) v a = m a).
  { intros v a A. unfold m3, m2, m1. rewrite !upd_other by lia. reflexivity. }
  assert (Dm : forall v a, m a <> None -> upd m3 (st + 24) v a <> None) by (intros; repeat apply upd_dom; auto).
  assert (LF : forall v i h, 1 <= i <= 9 -> linked m h (ls i) -> linked (upd m3 (st + 24) v) h (ls i)).
  { intros v i h I Q. apply (linked_frame m); auto. intros a A. apply F. apply (Fr i a I A). }
  destruct Li as [L1 L2 L3 L4]. destruct (k <? 9) eqn:E9.
  - rewrite getA_ix, bind_ok by lia. rewrite (put_chain _ _ _ E3), bind_ok. rewrite setA_ix, bind_ok by lia. do 3 eexists. split; [reflexivity|]. split; [|split; [apply W|split; auto]].
    assert (C : cls (32 * k) = k). { unfold cls. replace (32 * k / 32) with k by (rewrite Z.mul_comm, Z.div_mul; lia). rewrite E9. reflexivity. }
    constructor.
    + rewrite zlen_set. auto.
    + rewrite ix_upd by lia. replace (9 =? k) with false by lia. auto.
    + intros i I. rewrite ix_upd by lia. unfold push. cbn [bsz freeb ba]. rewrite C. destruct (i =? k) eqn:Q.
      * cbn [linked]. split; auto. split; [lia|]. exists (ix fl k). rewrite upd_same. split; auto. replace i with k in * by lia. apply LF; auto. lia.
      * apply LF; auto. lia.
    + unfold push. cbn [bsz freeb ba]. rewrite C. replace (9 =? k) with false by lia. apply LF; auto. lia.
  - rewrite (put_chain _ _ _ E3), bind_ok. do 3 eexists. split; [reflexivity|]. split; [|split; [apply W|split; auto]].
    assert (C : cls (32 * k) = 9). { unfold cls. replace (32 * k / 32) with k by (rewrite Z.mul_comm, Z.div_mul; lia). rewrite E9. reflexivity. }
    constructor; auto.
    + intros i I. unfold push. cbn [bsz freeb ba]. rewrite C. replace (i =? 9) with false by lia. apply LF; auto. lia.
    + unfold push. cbn [bsz freeb ba]. rewrite C. change (9 =? 9) with true. cbn [linked]. split; auto. split; [lia|]. exists bg. rewrite upd_same. split; auto. apply LF; auto. lia.
Qed.

(** The blocks after a sweep, with TRUE for those that stay. *)
Definition run (st fs : Z) : list (blk * bool) := if fs =? 0 then [] else [(freeb st fs, false)].
Fixpoint sweep (mk : blk -> bool) (st fs : Z) (bs : list blk) : list (blk * bool) :=
  match bs with
  | [] => run st fs
  | b :: r => if mk b then run st fs ++ (b, true) :: sweep mk (ba b + bsz b) 0 r else sweep mk st (fs + bsz b) r
  end.
Definition frees (rs : list (blk * bool)) : list blk := map fst (filter (fun x => negb (snd x)) rs).
Definition addfree (ls : Z -> list Z) (F : list blk) : Z -> list Z := fold_left push F ls.
Definition msize (mk : blk -> bool) (bs : list blk) : Z := fold_right (fun b s => (if mk b then bsz b else 0) + s) 0 bs.
Lemma frees_app : forall p q, frees (p ++ q) = frees p ++ frees q.
Proof. intros. unfold frees. rewrite filter_app, map_app. reflexivity. Qed.
Lemma addfree_app : forall ls p q, addfree ls (p ++ q) = addfree (addfree ls p) q.
Proof. intros. unfold addfree. apply fold_left_app. Qed.

Record swept (m m' : mem) (st e : Z) (rs : list (blk * bool)) : Prop := {
  sw_keep : forall b, In (b, true) rs -> m' (ba b) = Some (btag b) /\ forall a, ba b < a < ba b + bsz b -> m' a = m a;
  sw_free : forall f, In (f, false) rs -> words m' (ba f) [ba f + 8; bsz f; -8];
  sw_frame : forall a, a < st \/ e <= a -> m' a = m a;
  sw_dom : forall a, m a <> None -> m' a <> None
}.
(** Collecting the run before a block that stays, or before the end. *)
Lemma collect_run : forall st fs e (m : mem) fl bg ls, st + fs <= e -> (fs = 0 \/ exists k, 1 <= k /\ fs = 32 * k) -> 0 < st -> (exists k, st = 8 * k) -> lists m fl bg ls ->
  (forall a, st <= a < e -> (exists k, a = 8 * k) -> m a <> None) -> (forall i a, 1 <= i <= 9 -> In a (ls i) -> a + 24 < st \/ e <= a + 24) ->
  exists m' fl' bg', collect (st + fs) fs (m, fl, bg) = Ok (m', fl', bg') /\ lists m' fl' bg' (addfree ls (frees (run st fs))) /\ swept m m' st (st + fs) (run st fs).
Proof.
  intros st fs e m fl bg ls He [->|(k & K & ->)] S (j & J) Li D Fr.
  - exists m, fl, bg. split; [reflexivity|]. split; auto. constructor; auto; intros ? [].
  - assert (DD : forall d, 0 <= d < 4 -> m (st + 8 * d) <> None) by (intros d Hd; apply D; [lia|exists (j + d); lia]).
    destruct (collect_spec st k m fl bg ls) as (m' & fl' & bg' & A & B & C & E & F); auto.
    + specialize (DD 0 ltac:(lia)). replace (st + 8 * 0) with st in DD by lia. auto.
    + apply (DD 1). lia.
    + apply (DD 2). lia.
    + apply (DD 3). lia.
    + intros i a I Q. specialize (Fr i a I Q). lia.
    + exists m', fl', bg'. split; auto. unfold run. replace (32 * k =? 0) with false by lia. split; auto. constructor.
      * intros b [Q|[]]. discriminate.
      * intros f [Q|[]]. inversion Q; subst. exact C.
      * intros a Q. apply E. lia.
      * auto.
Qed.
Lemma in_addfree : forall F ls i a, In a (addfree ls F i) <-> In a (ls i) \/ exists f, In f F /\ cls (bsz f) = i /\ ba f = a.
Proof.
  induction F as [|f F IH]; intros ls i a; [split; auto; intros [H|(f & [] & _)]; auto|]. change (addfree ls (f :: F)) with (addfree (push ls f) F). rewrite IH. unfold push.
  destruct (i =? cls (bsz f)) eqn:E.
  - cbn [In]. split.
    + intros [[H|H]|(d & D & Q)]; auto; right; [exists f|exists d]; split; auto. split; auto. lia.
    + intros [H|(d & [<-|D] & Q1 & Q2)]; auto. right. eauto.
  - split.
    + intros [H|(d & D & Q)]; auto; right; exists d; split; auto. right; auto.
    + intros [H|(d & [<-|D] & Q1 & Q2)]; auto; [lia|]. right. eauto.
Qed.
Lemma run_in : forall st fs x, In x (run st fs) -> x = (freeb st fs, false) /\ fs <> 0.
Proof. intros st fs x H. unfold run in H. destruct (fs =? 0) eqn:E; [destruct H|]. destruct H as [<-|[]]. split; auto. lia. Qed.

Lemma sweep_ge : forall mk s0 bs x e f0 s1 d, s0 <= x -> tiles x bs e -> In (d, true) (sweep mk s1 f0 bs) -> s0 <= ba d.
Proof.
  intros mk s0. induction bs as [|b bs IH]; intros x e f0 s1 d X T I; cbn [sweep tiles] in *; [apply run_in in I; destruct I; discriminate|]. destruct T as (T1 & (u & U1 & U2) & T). destruct (mk b).
  - apply in_app_or in I. destruct I as [I|[I|I]]; [apply run_in in I; destruct I; discriminate|inversion I; subst; lia|]. eapply IH; [|exact T|exact I]. lia.
  - eapply IH; [|exact T|exact I]. lia.
Qed.

Lemma scan_blocks_spec : forall (mk : blk -> bool) bs adr e st fs al (m : mem) fl bg ls, tiles adr bs e -> st + fs = adr -> (fs = 0 \/ exists k, 1 <= k /\ fs = 32 * k) -> 0 < st -> (exists k, st = 8 * k) ->
  (forall a, st <= a < e -> (exists k, a = 8 * k) -> m a <> None) ->
  (forall b, In b bs -> m (ba b) = Some (btag b + if mk b then 1 else 0) /\ m (btag b) = Some (bsz b) /\ Z.odd (btag b) = false /\ (btag b < st \/ ba b < btag b)) ->
  lists m fl bg ls -> (forall i a, 1 <= i <= 9 -> In a (ls i) -> a + 24 < st \/ e <= a + 24) ->
  exists (adr1 fs1 : Z) (x1 : mem * list Z * Z) (m' : mem) (fl' : list Z) (bg' : Z), (forall fuel, (length bs < fuel)%nat -> scan_blocks fuel adr e fs al (m, fl, bg) = Ok (adr1, fs1, al + msize mk bs, x1)) /\
    collect adr1 fs1 x1 = Ok (m', fl', bg') /\ lists m' fl' bg' (addfree ls (frees (sweep mk st fs bs))) /\ swept m m' st e (sweep mk st fs bs).
Proof.
  intros mk. induction bs as [|b bs IH]; intros adr e st fs al m fl bg ls T Ea Hf S0 Al D Hb Li Fr; cbn [tiles] in T.
  - subst. destruct (collect_run st fs (st + fs) m fl bg ls) as (m' & fl' & bg' & A & B & C); auto; [lia|]. exists (st + fs), fs, (m, fl, bg), m', fl', bg'. split; [|auto].
    intros fuel F. destruct fuel as [|fuel]; [lia|]. cbn [scan_blocks]. replace (st + fs <? st + fs) with false by lia. cbn [msize fold_right]. rewrite Z.add_0_r. reflexivity.
  - destruct T as (T1 & (u & U1 & U2) & T). pose proof (tiles_le _ _ _ T) as Te. destruct (Hb b (or_introl eq_refl)) as (H1 & H2 & H3 & H4). cbn [sweep].
    assert (Fs0 : 0 <= fs) by (destruct Hf as [->|(k & K & ->)]; lia). subst adr.
    change (msize mk (b :: bs)) with ((if mk b then bsz b else 0) + msize mk bs). destruct (mk b) eqn:Mk.
    + destruct (collect_run st fs e m fl bg ls) as (m1 & fl1 & bg1 & A & B & C); auto; [lia|]. destruct C as [C1 C2 C3 C4]. rewrite Ea in *.
      assert (H1' : m1 (ba b) = Some (btag b + 1)) by (rewrite C3 by lia; auto).
      set (m2 := upd m1 (ba b) (btag b)).
      assert (H2' : m2 (btag b) = Some (bsz b)) by (unfold m2; rewrite upd_other by lia; rewrite C3 by lia; auto).
      assert (F2 : forall a, a < st \/ ba b < a -> m2 a = m a) by (intros a Q; unfold m2; rewrite upd_other by lia; apply C3; lia).
      destruct (IH (ba b + bsz b) e (ba b + bsz b) 0 (al + bsz b) m2 fl1 bg1 (addfree ls (frees (run st fs)))) as (adr1 & fs1 & x1 & m' & fl' & bg' & E1 & E2 & E3 & E4); auto; try lia.
      * destruct Al as (k & Ak). destruct Hf as [->|(j & J & ->)]; [exists (k + 4 * u); lia|exists (k + 4 * j + 4 * u); lia].
      * intros a Q Qk. unfold m2. apply upd_dom. apply C4. apply D; auto. lia.
      * intros d Dd. destruct (Hb d (or_intror Dd)) as (G1 & G2 & G3 & G4). destruct (tiles_in _ _ _ _ T Dd) as (G5 & G6 & _). rewrite !F2 by lia. conjs.
      * destruct B as [B1 B2 B3 B4]. assert (LF : forall i h, 1 <= i <= 9 -> linked m1 h (addfree ls (frees (run st fs)) i) -> linked m2 h (addfree ls (frees (run st fs)) i)).
        { intros i h I Q. apply (linked_frame m1); auto. intros a Ia. unfold m2. apply upd_other. apply in_addfree in Ia. destruct Ia as [Ia|(f & If & _ & <-)].
          - specialize (Fr i a I Ia). lia.
          - unfold frees in If. apply in_map_iff in If. destruct If as (x & Ex & If). apply filter_In in If. destruct If as [If _]. apply run_in in If. destruct If as [-> N]. subst f. cbn [fst freeb ba].
            destruct Hf as [->|(k & K & ->)]; lia. }
        constructor; auto. { intros i I. apply LF; auto. lia. } apply LF; auto. lia.
      * intros i a I Ia. apply in_addfree in Ia. destruct Ia as [Ia|(f & If & _ & <-)].
        -- specialize (Fr i a I Ia). lia.
        -- unfold frees in If. apply in_map_iff in If. destruct If as (x & Ex & If). apply filter_In in If. destruct If as [If _]. apply run_in in If. destruct If as [-> N]. subst f. cbn [fst freeb ba].
           left. destruct Hf as [->|(k & K & ->)]; lia.
      * exists adr1, fs1, x1, m', fl', bg'. split; [|split; [auto|split]].
        -- intros fuel F. cbn [length] in F. destruct fuel as [|fuel]; [lia|]. cbn [scan_blocks]. replace (ba b <? e) with true by lia. cbn [fst]. rewrite (get_ok _ _ _ H1), bind_ok.
           rewrite odd_S, H3. cbn [negb]. rewrite A, bind_ok. cbv iota beta. replace (btag b + 1 - 1) with (btag b) by lia. rewrite (put_ok _ _ _ _ H1'), bind_ok. fold m2. rewrite (get_ok _ _ _ H2'), bind_ok.
           rewrite E1 by lia. do 3 f_equal. lia.
        -- rewrite frees_app. change (frees ((b, true) :: sweep mk (ba b + bsz b) 0 bs)) with (frees (sweep mk (ba b + bsz b) 0 bs)). rewrite addfree_app. auto.
        -- destruct E4 as [G1 G2 G3 G4]. constructor.
           ++ intros d Id. apply in_app_or in Id. destruct Id as [Id|[Id|Id]].
              ** apply run_in in Id. destruct Id as [Id _]. discriminate.
              ** inversion Id; subst d. split; [rewrite G3 by lia; unfold m2; apply upd_same|]. intros a Q. rewrite G3 by lia. apply F2. lia.
              ** destruct (G1 d Id) as [P1 P2]. split; auto. intros a Q. rewrite P2 by auto. apply F2. right.
                 pose proof (sweep_ge mk (ba b + bsz b) bs (ba b + bsz b) e 0 (ba b + bsz b) d ltac:(lia) T Id).
                 lia.
           ++ intros f If. apply in_app_or in If. destruct If as [If|[If|If]]; [|discriminate|apply G2; auto]. pose proof (run_in _ _ _ If) as [Qf N]. inversion Qf; subst f. cbn [ba bsz freeb].
              specialize (C2 _ If). cbn [ba bsz freeb] in C2. assert (32 <= fs) by (destruct Hf as [->|(k & K & ->)]; lia).
              apply (words_frame m1); auto. rewrite !zlen_cons, zlen_nil. intros k Hk. rewrite G3 by lia. unfold m2. apply upd_other. lia.
           ++ intros a Q. rewrite G3 by lia. apply F2. lia.
           ++ intros a Q. apply G4. unfold m2. apply upd_dom. auto.
    + rewrite Z.add_0_r in H1. destruct (IH (ba b + bsz b) e st (fs + bsz b) al m fl bg ls) as (adr1 & fs1 & x1 & m' & fl' & bg' & E1 & E2 & E3 & E4); auto; try lia.
      * right. destruct Hf as [->|(k & K & ->)]; [exists u; lia|exists (k + u); lia].
      * intros d Dd. apply Hb. right; auto.
      * exists adr1, fs1, x1, m', fl', bg'. split; [|auto]. intros fuel F. cbn [length] in F. destruct fuel as [|fuel]; [lia|]. cbn [scan_blocks]. replace (ba b <? e) with true by lia. cbn [fst].
        rewrite (get_ok _ _ _ H1), bind_ok. rewrite H3. rewrite (get_ok _ _ _ H2), bind_ok. rewrite E1 by lia. do 3 f_equal.
Qed.

(** * The chunks *)
Lemma sweep_tiles : forall mk bs adr e st fs, tiles adr bs e -> st + fs = adr -> (fs = 0 \/ exists k, 1 <= k /\ fs = 32 * k) -> tiles st (map fst (sweep mk st fs bs)) e.
Proof.
  intro mk. assert (R : forall st fs q e, (fs = 0 \/ exists k, 1 <= k /\ fs = 32 * k) -> tiles (st + fs) (map fst q) e -> tiles st (map fst (run st fs ++ q)) e).
  { intros st fs q e Hf T. unfold run. destruct Hf as [->|(k & K & ->)].
    - cbn [app Z.eqb]. rewrite Z.add_0_r in T. auto.
    - replace (32 * k =? 0) with false by lia. cbn [app map fst tiles freeb ba bsz]. split; auto. split; auto. exists k. auto. }
  induction bs as [|b bs IH]; intros adr e st fs T E Hf; cbn [tiles sweep] in *.
  - rewrite <- (app_nil_r (run st fs)). apply R; auto. cbn [map tiles]. lia.
  - destruct T as (T1 & (u & U1 & U2) & T). destruct (mk b).
    + apply R; auto. cbn [map fst tiles]. split; [lia|]. split; [exists u; auto|]. rewrite E, <- T1. apply IH with (ba b + bsz b); try lia. rewrite T1. auto.
    + apply IH with (adr + bsz b); auto; [lia|]. right. destruct Hf as [->|(k & K & ->)]; [exists u; lia|exists (k + u); lia].
Qed.
Lemma sweep_keep : forall mk bs st fs b, In (b, true) (sweep mk st fs bs) <-> In b bs /\ mk b = true.
Proof.
  intro mk. induction bs as [|b0 bs IH]; intros st fs b; cbn [sweep In].
  - split; [intro H; apply run_in in H; destruct H; discriminate|tauto].
  - destruct (mk b0) eqn:E.
    + rewrite in_app_iff. cbn [In]. rewrite IH. split.
      * intros [H|[H|[H1 H2]]]; [apply run_in in H; destruct H; discriminate|inversion H; subst; auto|auto].
      * intros [[->|H] H2]; auto.
    + rewrite IH. split; [tauto|]. intros [[->|H] H2]; [congruence|auto].
Qed.
Lemma sweep_free : forall mk bs st fs f, In (f, false) (sweep mk st fs bs) -> btag f = ba f + 8 /\ bofs f = [].
Proof.
  intro mk. induction bs as [|b0 bs IH]; intros st fs f H; cbn [sweep In] in H.
  - apply run_in in H. destruct H as [H _]. inversion H; subst. auto.
  - destruct (mk b0).
    + apply in_app_or in H. destruct H as [H|[H|H]]; [apply run_in in H; destruct H as [H _]; inversion H; subst; auto|discriminate|eauto].
    + eauto.
Qed.
(** No two free blocks in a row. *)
Fixpoint noadj (rs : list (blk * bool)) : Prop :=
  match rs with (_, false) :: ((_, false) :: _) => False | _ :: r => noadj r | [] => True end.
Lemma sweep_noadj : forall mk bs st fs, noadj (sweep mk st fs bs).
Proof.
  intro mk. induction bs as [|b bs IH]; intros st fs; cbn [sweep].
  - unfold run. destruct (fs =? 0); exact I.
  - destruct (mk b); auto. unfold run. destruct (fs =? 0); cbn [app noadj]; apply IH.
Qed.
Lemma msize_app : forall mk p q, msize mk (p ++ q) = msize mk p + msize mk q.
Proof. intros mk p q. unfold msize. induction p; cbn [app fold_right]; lia. Qed.
Definition rsL (mk : blk -> bool) (L : list chunk) : list (blk * bool) := flat_map (fun c => sweep mk (ca c + 24) 0 (cb c)) L.
Definition sweepL (mk : blk -> bool) (L : list chunk) : list chunk := map (fun c => {| ca := ca c; ce := ce c; cb := map fst (sweep mk (ca c + 24) 0 (cb c)) |}) L.
Lemma sweepL_blocks : forall mk L, blocks (sweepL mk L) = map fst (rsL mk L).
Proof. intro mk. unfold blocks, rsL, sweepL. induction L as [|c L IH]; [reflexivity|]. cbn [map flat_map cb]. rewrite map_app. congruence. Qed.
Lemma sweepL_inside : forall mk L a, inside (sweepL mk L) a <-> inside L a.
Proof.
  intros mk L a. unfold inside, sweepL. split.
  - intros (c & I & Q). apply in_map_iff in I. destruct I as (d & <- & I). exists d. auto.
  - intros (c & I & Q). eexists. split; [apply in_map_iff; exists c; split; [reflexivity|auto]|]. auto.
Qed.
Lemma sweepL_placed : forall mk L lo, placed lo L -> placed lo (sweepL mk L).
Proof.
  intro mk. induction L as [|c L IH]; intros lo H; cbn [sweepL map placed ca ce cb] in *; auto. destruct H as (A & P & B & C & D). split; auto. split; auto. split; auto. split; [|apply IH; auto].
  apply sweep_tiles with (ca c + 24); auto. lia.
Qed.
Lemma sweepL_chained : forall mk m L h, chained m h L -> chained m h (sweepL mk L).
Proof. intros mk m. induction L as [|c L IH]; intros h H; cbn [sweepL map chained ca ce] in *; auto. destruct H as (A & B & nx & C & D). split; auto. split; auto. exists nx. split; auto. Qed.
Lemma rsL_keep : forall mk L b, In (b, true) (rsL mk L) <-> In b (blocks L) /\ mk b = true.
Proof.
  intros mk L b. unfold rsL. rewrite in_flat_map, in_blocks. split.
  - intros (c & C & I). apply sweep_keep in I. destruct I. split; auto. exists c; auto.
  - intros ((c & C & I) & E). exists c. split; auto. apply sweep_keep. auto.
Qed.
Lemma rsL_free : forall mk L f, In (f, false) (rsL mk L) -> btag f = ba f + 8 /\ bofs f = [].
Proof. intros mk L f H. unfold rsL in H. apply in_flat_map in H. destruct H as (c & C & I). eapply sweep_free; eauto. Qed.

Record sweptL (m m' : mem) (L : list chunk) (rs : list (blk * bool)) : Prop := {
  sl_keep : forall b, In (b, true) rs -> m' (ba b) = Some (btag b) /\ forall a, ba b < a < ba b + bsz b -> m' a = m a;
  sl_free : forall f, In (f, false) rs -> words m' (ba f) [ba f + 8; bsz f; -8];
  sl_frame : forall a, (forall c, In c L -> ~ (ca c + 24 <= a < ce c)) -> m' a = m a;
  sl_dom : forall a, m a <> None -> m' a <> None
}.
Lemma sweep_range : forall mk bs adr e r x, tiles adr bs e -> In (x, r) (sweep mk adr 0 bs) -> adr <= ba x /\ ba x + bsz x <= e /\ 32 <= bsz x.
Proof.
  intros mk bs adr e r x T I. assert (T2 : tiles adr (map fst (sweep mk adr 0 bs)) e) by (apply sweep_tiles with adr; auto; lia).
  destruct (tiles_in _ _ _ x T2) as (A & B & (k & C & D)); [apply in_map_iff; exists (x, r); auto|]. conjs.
Qed.
Lemma scan_chunks_spec : forall (mk : blk -> bool) Ls lo chnk al (m : mem) fl bg ls, chained m chnk Ls -> placed lo Ls -> 0 < lo -> allmapped m Ls ->
  (forall b, In b (blocks Ls) -> m (ba b) = Some (btag b + if mk b then 1 else 0) /\ m (btag b) = Some (bsz b) /\ Z.odd (btag b) = false /\ (ba b < btag b < ba b + bsz b \/ ~ inside Ls (btag b))) ->
  lists m fl bg ls -> (forall i a, 1 <= i <= 9 -> In a (ls i) -> ~ inside Ls (a + 24)) ->
  exists N (m' : mem) (fl' : list Z) (bg' : Z), (forall fuel, (N <= fuel)%nat -> scan_chunks fuel chnk al (m, fl, bg) = Ok (al + msize mk (blocks Ls), (m', fl', bg'))) /\
    lists m' fl' bg' (addfree ls (frees (rsL mk Ls))) /\ sweptL m m' Ls (rsL mk Ls).
Proof.
  intro mk. induction Ls as [|c Ls IH]; intros lo chnk al m fl bg ls C P Lo Mp Hb Li Fr; cbn [chained placed] in *.
  - exists 1%nat, m, fl, bg. split; [|split; auto].
    + intros fuel F. destruct fuel as [|fuel]; [lia|]. cbn [scan_chunks]. subst chnk. cbn. rewrite Z.add_0_r. reflexivity.
    + constructor; auto; intros ? [].
  - destruct C as (-> & C1 & nx & C2 & C3). destruct P as (P1 & P0 & (k0 & P2) & P3 & P4). pose proof (tiles_le _ _ _ P3) as Te.
    assert (INC : forall a, ca c <= a < ce c -> inside (c :: Ls) a) by (intros a A; exists c; split; [left|]; auto).
    assert (INL : forall a, inside Ls a -> inside (c :: Ls) a) by (intros a (d & I & A); exists d; split; [right|]; auto).
    assert (Lt : forall b, In b (blocks Ls) -> ce c < ba b).
    { intros b B. destruct (block_chunk _ _ _ P4 B) as (d & _ & _ & _ & _ & _ & _ & _ & Q). auto. }
    assert (LtI : forall a, inside Ls a -> ce c <= a) by (intros a (d & I & A); destruct (placed_ge _ _ _ P4 I); lia).
    destruct (scan_blocks_spec mk (cb c) (ca c + 24) (ce c) (ca c + 24) 0 al m fl bg ls) as (adr1 & fs1 & x1 & m1 & fl1 & bg1 & A1 & A2 & A3 & A4); auto; try lia.
    { exists (2 * k0 + 3). lia. }
    { intros a A K. apply Mp; auto. apply INC. lia. }
    { intros b B. destruct (Hb b) as (G1 & G2 & G3 & G4); [apply in_blocks; exists c; split; [left|]; auto|]. split; auto. split; auto. split; auto. destruct (tiles_in _ _ _ _ P3 B) as (Q1 & Q2 & (u & U1 & U2)).
      destruct G4 as [G4|G4]; [lia|]. destruct (Z_lt_le_dec (btag b) (ca c + 24)) as [|Q3]; auto. right. destruct (Z_lt_le_dec (btag b) (ce c)) as [Q4|Q4]; [exfalso; apply G4; apply INC; lia|lia]. }
    { intros i a I Ia. specialize (Fr i a I Ia). destruct (Z_lt_le_dec (a + 24) (ca c + 24)) as [|Q3]; auto. right. destruct (Z_lt_le_dec (a + 24) (ce c)) as [Q4|Q4]; auto. exfalso. apply Fr. apply INC. lia. }
    destruct A4 as [S1 S2 S3 S4].
    assert (F1 : forall a, ~ (ca c + 24 <= a < ce c) -> m1 a = m a) by (intros a A; apply S3; lia).
    destruct (IH (ce c) nx (al + msize mk (cb c)) m1 fl1 bg1 (addfree ls (frees (sweep mk (ca c + 24) 0 (cb c))))) as (N & m' & fl' & bg' & B1 & B2 & B3); auto; try lia.
    { assert (G : forall d a, In d Ls -> ca d <= a < ca d + 24 -> m1 a = m a) by (intros d a D A; destruct (placed_ge _ _ _ P4 D); apply F1; lia).
      clear - C3 G. revert nx C3 G. induction Ls as [|d Ls IH]; intros nx C3 G; cbn [chained] in *; auto. destruct C3 as (A & B & n2 & D & E). split; auto. rewrite !(G d) by (try (left; reflexivity); lia). split; auto. exists n2. split; auto. apply IH; auto. intros d' a' I'. apply G. right; auto. }
    { intros a I K. apply S4. apply Mp; auto. }
    { intros b B. destruct (Hb b) as (G1 & G2 & G3 & G4); [apply in_blocks in B; destruct B as (d & D1 & D2); apply in_blocks; exists d; split; [right|]; auto|]. specialize (Lt b B).
      rewrite (F1 (ba b)) by lia. rewrite (F1 (btag b)). - conjs. destruct G4 as [G4|G4]; auto.
      - destruct G4 as [G4|G4]; [lia|]. intro A. apply G4. apply INC. lia. }
    { intros i a I Ia Q. apply in_addfree in Ia. destruct Ia as [Ia|(f & If & _ & <-)]; [apply (Fr i a I Ia); auto|]. specialize (LtI _ Q). unfold frees in If. apply in_map_iff in If. destruct If as ([x b] & Ex & If). apply filter_In in If. destruct If as [If _]. cbn [fst] in Ex. subst x.
      destruct (sweep_range _ _ _ _ _ _ P3 If). lia. }
    destruct B3 as [D1 D2 D3 D4].
    assert (F2 : forall a, a < ce c -> m' a = m1 a) by (intros a A; apply D3; intros d D Q; destruct (placed_ge _ _ _ P4 D); lia).
    assert (E1 : m1 (ca c) = Some nx) by (rewrite F1 by lia; auto).
    exists (S (S (length (cb c) + N))), m', fl', bg'. split; [|split].
    + intros fuel F. destruct fuel as [|fuel]; [lia|]. cbn [scan_chunks]. replace (ca c =? 0) with false by lia. cbn [fst]. rewrite (get_ok _ _ _ C1), bind_ok. rewrite A1 by lia. rewrite bind_ok. cbv iota beta.
      rewrite A2, bind_ok. cbn [fst]. rewrite (get_ok _ _ _ E1), bind_ok. rewrite B1 by lia. do 2 f_equal. unfold blocks. cbn [flat_map].
      rewrite msize_app. lia.
    + unfold rsL. cbn [flat_map]. rewrite frees_app, addfree_app. auto.
    + unfold rsL. cbn [flat_map]. constructor.
      * intros b I. apply in_app_or in I. destruct I as [I|I].
        -- destruct (S1 b I) as [Q1 Q2]. destruct (sweep_range _ _ _ _ _ _ P3 I) as (R1 & R2 & R3). split; [rewrite F2 by lia; auto|]. intros a A. rewrite F2 by lia. auto.
        -- destruct (D1 b I) as [Q1 Q2]. split; auto. intros a A. rewrite Q2 by auto. apply F1. apply rsL_keep in I. specialize (Lt b (proj1 I)). lia.
      * intros f I. apply in_app_or in I. destruct I as [I|I]; [|apply D2; auto]. destruct (sweep_range _ _ _ _ _ _ P3 I) as (R1 & R2 & R3). apply (words_frame m1); [|apply S2; auto].
        rewrite !zlen_cons, zlen_nil. intros k Hk. apply F2. lia.
      * intros a A. rewrite D3 by (intros d D; apply A; right; auto). apply F1. apply A. left; auto.
      * intros a A. auto.
Qed.

(** The sweep as a whole. *)
Definition nolists : Z -> list Z := fun _ => [].
Lemma Scan_spec : forall s L M, heapok (hm s) (heap s) L M -> incl M (map ptr (blocks L)) -> mclosed (graph_of (hm s) L) M -> zlen (fl s) = 10 -> ix (fl s) 9 <> 0 ->
  let mk := fun b => isin (ptr b) M in
  exists N s', (forall fuel, (N <= fuel)%nat -> Scan fuel s = Ok s') /\ heapok (hm s') (heap s') (sweepL mk L) [] /\ lists (hm s') (fl s') (big s') (addfree nolists (frees (rsL mk L))) /\
    sweptL (hm s) (hm s') L (rsL mk L) /\ allocd s' = msize mk (blocks L) /\
    heap s' = heap s /\ hmin s' = hmin s /\ hmax s' = hmax s /\ hsize s' = hsize s /\ hexp s' = hexp s /\ tick s' = tick s.
Proof.
  intros s L M H IM CM Lf Sf mk. pose proof (ho_placed _ _ _ _ H) as P.
  destruct (fl s) as [|f0 fr] eqn:Ef; [rewrite zlen_nil in Lf; lia|].
  assert (E9 : exists z, skipn 9 (fl s) = [z] /\ z <> 0).
  { rewrite Ef. unfold zlen in Lf. do 9 (destruct fr as [|? fr]; [cbn [length] in Lf; lia|]). destruct fr; [|cbn [length] in Lf; lia]. eexists. split; [reflexivity|]. exact Sf. }
  rewrite Ef in E9. destruct E9 as (z & Ez & Nz).
  assert (Li0 : lists (hm s) (f0 :: repeat 0 8 ++ [z]) 0 nolists).
  { constructor; [reflexivity|exact Nz| |reflexivity]. intros i I. unfold nolists. cbn [linked repeat app].
    assert (Hi : i = 1 \/ i = 2 \/ i = 3 \/ i = 4 \/ i = 5 \/ i = 6 \/ i = 7 \/ i = 8) by lia. repeat (destruct Hi as [->|Hi]; [reflexivity|]). subst i. reflexivity. }
  destruct (scan_chunks_spec mk L 1 (heap s) 0 (hm s) (f0 :: repeat 0 8 ++ [z]) 0 nolists (ho_chain _ _ _ _ H) P ltac:(lia) (ho_map _ _ _ _ H)) with (2 := Li0) as (N & m' & fl' & bg' & A & B & C); [|intros i a _ []|].
  { intros b Hb. split; [apply (ho_head _ _ _ _ H b Hb)|]. split; [apply (ho_tab _ _ _ _ H b Hb)|]. split; [apply (wf_even _ _ (ho_wf _ _ _ _ H b Hb))|].
    pose proof (zlen_nonneg _ (bofs b)). destruct (wf_tab _ _ (ho_wf _ _ _ _ H b Hb)) as [T|(T1 & T2 & _)]; [right|left; unfold ptr in *; lia]. specialize (T 0 ltac:(lia)). replace (btag b + 8 * 0) with (btag b) in T by lia. auto. }
  exists N. eexists. split; [|split; [|split; [|split; [|split]]]].
  - intros fuel F. unfold Scan. rewrite Ef. cbn [nth]. rewrite Ez. rewrite A by auto. rewrite bind_ok. cbv iota beta. reflexivity.
  - cbn [hm heap]. destruct C as [C1 C2 C3 C4].
    assert (IB : forall b, In b (blocks (sweepL mk L)) -> (In b (blocks L) /\ mk b = true /\ In (b, true) (rsL mk L)) \/ (btag b = ba b + 8 /\ bofs b = [] /\ In (b, false) (rsL mk L))).
    { intros b Ib. rewrite sweepL_blocks in Ib. apply in_map_iff in Ib. destruct Ib as ([x r] & Ex & Ir). cbn [fst] in Ex. subst x. destruct r.
      - left. pose proof (proj1 (rsL_keep _ _ _) Ir) as []. auto.
      - right. destruct (rsL_free _ _ _ Ir). auto. }
    pose proof (sweepL_placed mk L 1 P) as P'.
    assert (OUT : forall a, ~ inside L a -> m' a = hm s a). { intros a Na. apply C3. intros c Ic Q. apply Na. exists c. split; auto. lia. }
    assert (KW : forall b, In b (blocks L) -> In (b, true) (rsL mk L) -> forall a, ba b < a < ba b + bsz b -> m' a = hm s a) by (intros b _ Ib; apply (C1 b Ib)).
    constructor.
    + auto.
    + apply sweepL_chained. pose proof (ho_chain _ _ _ _ H) as Ch.
      assert (G : forall c a, In c L -> ca c <= a < ca c + 24 -> m' a = hm s a).
      { intros c a Ic A'. apply C3. intros d Id Q. destruct (placed_ge _ _ _ P Ic). destruct (placed_ge _ _ _ P Id). destruct (placed_disj _ _ _ _ P Ic Id) as [->|]; lia. }
      clear - Ch G. revert Ch G. generalize (heap s) as h. induction L as [|c L IH]; intros h Ch G; cbn [chained] in *; auto. destruct Ch as (Q & B & nx & D & E). split; auto. rewrite !(G c) by (try (left; reflexivity); lia). split; auto. exists nx. split; auto. apply IH; auto. intros; apply (G c0); auto. right; auto.
    + intros a Ia K. apply C4. apply (ho_map _ _ _ _ H); auto. apply (sweepL_inside mk L a). auto.
    + intros b Ib. destruct (IB b Ib) as [(B1 & B2 & B3)|(B1 & B2 & B3)].
      * destruct (ho_wf _ _ _ _ H b B1) as [W1 W2 W3 W4]. constructor; auto. destruct W4 as [W4|W4]; auto. left. intros k K Q. apply (W4 k K). apply (sweepL_inside mk L _). auto.
      * destruct (block_chunk _ _ _ P' Ib) as (c & _ & _ & _ & _ & (k & K1 & K2) & (j & J) & _).
        constructor; rewrite ?B1, ?B2; auto; [| constructor | intros o [] |].
        -- replace (ba b + 8) with (2 * (4 * j + 4)) by lia. rewrite Z.odd_mul. reflexivity.
        -- right. unfold ptr. rewrite zlen_nil. split; [lia|]. split; [lia|]. intros o [].
    + intros b Ib. destruct (IB b Ib) as [(B1 & B2 & B3)|(B1 & B2 & B3)].
      * apply (words_frame (hm s)); [|apply (ho_tab _ _ _ _ H b B1)]. intros k K. rewrite table_len in K. destruct (wf_tab _ _ (ho_wf _ _ _ _ H b B1)) as [T|(T1 & T2 & _)].
        -- apply OUT. apply T. lia.
        -- apply (KW b); auto. unfold ptr in *. lia.
      * specialize (C2 b B3). unfold table. rewrite B1, B2. cbn [words app] in *. rewrite zlen_nil. replace (ba b + 8 + 8) with (ba b + 16) in * by lia. tauto.
    + intros b Ib. cbn [isin]. replace (isin (ptr b) []) with false by reflexivity. rewrite Z.add_0_r. destruct (IB b Ib) as [(B1 & B2 & B3)|(B1 & B2 & B3)].
      * apply (C1 b B3).
      * rewrite B1. apply (C2 b B3).
    + intros b o Ib Io. destruct (IB b Ib) as [(B1 & B2 & B3)|(B1 & B2 & B3)]; [|rewrite B2 in Io; destruct Io].
      pose proof (fld_loc _ _ _ _ H b o B1 Io) as FL. unfold val. rewrite (KW b B1 B3) by auto. fold (val (hm s) (ptr b + o)).
      destruct (Z.eq_dec (val (hm s) (ptr b + o)) 0) as [Z0|Z0]; auto. right.
      assert (Q : In (val (hm s) (ptr b + o)) M).
      { apply (CM (ptr b) o); auto; [apply isin_true; exact B2|]. rewrite (g_flds _ _ _ _ H) by auto. apply in_map_iff. exists o. auto. }
      pose proof (IM _ Q) as Q2. apply in_map_iff in Q2. destruct Q2 as (d & Ed & Id). rewrite <- Ed. apply in_map. rewrite sweepL_blocks. apply in_map_iff. exists (d, true). split; auto. apply rsL_keep. split; auto.
      unfold mk. apply isin_true. rewrite Ed. auto.
  - cbn [hm fl big]. exact B.
  - exact C.
  - cbn [allocd]. reflexivity.
  - repeat split.
Qed.
