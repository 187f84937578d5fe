From Verif Require Import Base ArrZ HeapModel HeapSpec MarkProofs LayProofs SortProofs CandProofs ScanProofs AllocProofs CarveProofs ExtendProofs HeapProps.
From Coq Require Import Permutation.

Lemma tiles_first : forall bs a e, tiles a bs e -> a < e -> (exists b, In b bs /\ ba b = a) /\ (exists b, In b bs /\ ba b + bsz b = e).
Proof.
  induction bs as [|b bs IH]; intros a e T A; cbn [tiles] in T; [lia|]. destruct T as (T1 & (k & K1 & K2) & T3). split; [exists b; split; [left|]; auto|].
  pose proof (tiles_le _ _ _ T3). destruct (Z.eq_dec (a + bsz b) e) as [E|E]; [exists b; split; [left; auto|lia]|]. destruct (IH _ _ T3 ltac:(lia)) as [_ (d & D1 & D2)]. exists d. split; auto. right; auto.
Qed.

Section MH.
Variables (m0 : mem) (h : Z) (L : list chunk).
Hypothesis H : heapok m0 h L [].
Let P := ho_placed _ _ _ _ H.
Let g := graph_of m0 L.
Lemma mk_val : forall m M b o, marking m0 L m M -> In b (blocks L) -> In o (bofs b) -> val m (ptr b + o) = val m0 (ptr b + o).
Proof.
  intros m M b o K B O. destruct (sh_fld _ _ _ (mk_shows _ _ _ _ K) (ptr b) o (val m0 (ptr b + o)) (in_map ptr _ _ B)) as [Q _]; [rewrite (g_flds _ _ _ _ H) by auto; apply in_map_iff; exists o; auto|]. unfold val at 1. rewrite Q. auto.
Qed.
Lemma marking_heapok : forall m M, marking m0 L m M -> heapok m h L M.
Proof.
  intros m M K. constructor; auto.
  - apply (chained_frame m0); [|apply (ho_chain _ _ _ _ H)]. intros c a C A. apply (mk_hdr _ _ _ _ H m M c); auto.
  - intros a A Ka. destruct (in_dec Z.eq_dec a (map ba (blocks L))) as [I|I].
    + apply in_map_iff in I. destruct I as (b & <- & B). rewrite (mk_head _ _ _ _ H m M b K B). discriminate.
    + rewrite (mk_frame _ _ _ _ K); [apply (ho_map _ _ _ _ H); auto|]. intros b B ->. apply I. apply in_map. auto.
  - apply (ho_wf _ _ _ _ H).
  - intros b B. apply (mk_tab _ _ _ _ H m M); auto.
  - intros b B. apply (mk_head _ _ _ _ H m M b K B).
  - intros b o B O. rewrite (mk_val m M) by auto. apply (ho_fld _ _ _ _ H); auto.
Qed.
Lemma mk_closed : forall m M, marking m0 L m M -> mclosed (graph_of m L) M.
Proof.
  intros m M K x o c X F C. pose proof (mk_in _ _ _ _ K x X) as I. apply in_map_iff in I. destruct I as (b & <- & B).
  rewrite (g_flds _ _ _ _ (marking_heapok _ _ K)) in F by auto. apply in_map_iff in F. destruct F as (o' & E & O). inversion E; subst. apply (mk_cl _ _ _ _ K (ptr b) o); auto. rewrite (g_flds _ _ _ _ H) by auto. rewrite (mk_val m M) by auto. apply in_map_iff. exists o. auto.
Qed.
Lemma flds_same : forall m M x, marking m0 L m M -> flds (graph_of m L) x = flds g x.
Proof.
  intros m M x K. unfold g. cbn [graph_of flds]. destruct (blk_at L x) as [b|] eqn:E; auto. unfold blk_at in E. apply find_some in E. destruct E as [B Q]. replace x with (ptr b) by lia. apply map_ext_in. intros o O. rewrite (mk_val m M); auto.
Qed.

(** CheckFin: which nodes are found marked. *)
Lemma CheckFin_spec : forall fs m M, marking m0 L m M -> (forall n, In n fs -> In (fobj n) (map ptr (blocks L))) ->
  exists N m' M' fs', (forall fuel, (N <= fuel)%nat -> CheckFin fuel m fs = Ok (m', fs')) /\ marking m0 L m' M' /\ (forall x, In x M' <-> In x M \/ exists n, In n fs /\ reach g (fobj n) x) /\
    map fobj fs' = map fobj fs /\ map ffin fs' = map ffin fs /\
    (forall l1 n l2, fs = l1 ++ n :: l2 -> exists l1' l2' n', fs' = l1' ++ n' :: l2' /\ length l1' = length l1 /\ fobj n' = fobj n /\ ffin n' = ffin n /\ (fmarked n' = true <-> In (fobj n) M \/ exists e, In e l1 /\ reach g (fobj e) (fobj n))).
Proof.
  induction fs as [|n fs IH]; intros m M K V.
  - exists 0%nat, m, M, []. split; [reflexivity|]. split; auto. split; [intro x; split; [auto|intros [X|(n & [] & _)]; auto]|]. split; auto. split; auto. intros [|] ? ? E; discriminate.
  - assert (Vn : In (fobj n) (map ptr (blocks L))) by (apply V; left; auto). apply in_map_iff in Vn. destruct Vn as (b & Eb & B).
    assert (Tg : m (fobj n - 8) = Some (btag b + if isin (fobj n) M then 1 else 0)) by (rewrite <- Eb; replace (ptr b - 8) with (ba b) by (unfold ptr; lia); apply (mk_head _ _ _ _ H m M b K B)).
    assert (Od : Z.odd (btag b + if isin (fobj n) M then 1 else 0) = isin (fobj n) M) by (rewrite <- Eb; apply (mk_odd _ _ _ _ H m M b K B)).
    assert (ST : exists N1 m1 M1, (forall fuel, (N1 <= fuel)%nat -> (if isin (fobj n) M then Ok m else Mark fuel m (fobj n)) = Ok m1) /\ marking m0 L m1 M1 /\ (forall x, In x M1 <-> In x M \/ reach g (fobj n) x)).
    { destruct (isin (fobj n) M) eqn:E.
      - exists 0%nat, m, M. split; [reflexivity|]. split; auto. intro x. split; auto. intros [X|X]; auto. apply isin_true in E. clear - X E K. induction X; auto. apply (mk_cl _ _ _ _ K x o c); auto.
      - destruct (mk_Mark _ _ _ _ H m M (fobj n) K) as (N1 & m1 & M1 & A1 & B1 & C1); [right; rewrite <- Eb; apply in_map; auto|]. exists N1, m1, M1. auto. }
    destruct ST as (N1 & m1 & M1 & A1 & B1 & C1). destruct (IH m1 M1 B1) as (N2 & m2 & M2 & fs2 & A2 & B2 & C2 & D2 & E2 & F2); [intros; apply V; right; auto|].
    exists (N1 + N2)%nat, m2, M2, ({| fobj := fobj n; ffin := ffin n; fmarked := isin (fobj n) M |} :: fs2). split; [|split; [auto|split; [|split; [|split]]]].
    + intros fuel F. cbn [CheckFin]. rewrite (get_ok _ _ _ Tg), bind_ok. rewrite Od. rewrite A1 by lia. rewrite bind_ok. rewrite A2 by lia. rewrite bind_ok. reflexivity.
    + intro x. rewrite C2, C1. split.
      * intros [[X|X]|(e & I & X)]; auto; right; [exists n; split; [left|]; auto|exists e; split; [right|]; auto].
      * intros [X|(e & [<-|I] & X)]; auto. right. exists e. auto.
    + cbn [map fobj]. congruence.
    + cbn [map ffin]. congruence.
    + intros [|x l1] e l2 E; cbn [app] in E; inversion E; subst.
      * exists [], fs2, {| fobj := fobj e; ffin := ffin e; fmarked := isin (fobj e) M |}. cbn [fobj ffin fmarked]. split; auto. split; auto. split; auto. split; auto. rewrite isin_true. split; auto. intros [X|(q & [] & _)]; auto.
      * destruct (F2 l1 e l2 eq_refl) as (l1' & l2' & n' & G1 & G2 & G3 & G4 & G5). exists ({| fobj := fobj x; ffin := ffin x; fmarked := isin (fobj x) M |} :: l1'), l2', n'. split; [cbn [app]; congruence|]. split; [cbn [length]; congruence|]. split; auto. split; auto.
        rewrite G5, C1. split.
        -- intros [[X|X]|(q & I & X)]; auto; right; [exists x; split; [left|]; auto|exists q; split; [right|]; auto].
        -- intros [X|(q & [<-|I] & X)]; auto. right. exists q. auto.
Qed.
End MH.

(** * The collector as a whole *)
Lemma sweep_all : forall s L ls m M, hinv s L ls -> marking (hm s) L m M ->
  exists N s' L' ls', (forall fuel, (N <= fuel)%nat -> Scan fuel (setmem m s) = Ok s') /\ collected s L M s' L' ls'.
Proof.
  intros s L ls m M HI K. pose proof (hi_ok _ _ _ HI) as OK. pose proof (ho_placed _ _ _ _ OK) as P. pose proof (marking_heapok _ _ _ OK m M K) as OK1. pose proof (mk_in _ _ _ _ K) as IM. pose proof (mk_closed _ _ _ OK m M K) as CM.
  destruct (hi_ls _ _ _ HI) as [L1 L2 _ _]. destruct (Scan_spec (setmem m s) L M OK1 IM CM L1 L2) as (N & s' & A & B & C & D & E & E1 & E2 & E3 & E4 & E5 & E6). set (mk := fun b => isin (ptr b) M) in *. cbn [setmem hm heap hmin hmax hsize hexp tick] in *.
  pose proof (ho_placed _ _ _ _ B) as P'. set (ls' := addfree nolists (frees (rsL mk L))) in *.
  assert (EB : blocks (sweepL mk L) = map fst (rsL mk L)) by apply sweepL_blocks.
  assert (U : forall x y, In x (blocks (sweepL mk L)) -> In y (blocks (sweepL mk L)) -> ba x = ba y -> x = y).
  { intros x y X Y Exy. pose proof (bsz_pos _ _ _ P' X). pose proof (bsz_pos _ _ _ P' Y). apply (block_same (sweepL mk L) 1 _ _ (ba x) P'); auto; lia. }
  assert (I1 : forall x r, In (x, r) (rsL mk L) -> In x (blocks (sweepL mk L))) by (intros x r X; rewrite EB; apply in_map_iff; exists (x, r); auto).
  assert (NB : NoDup (map ba (map fst (rsL mk L)))) by (rewrite <- EB; apply (placed_nodup _ 1 P')).
  assert (XX : forall x, In (x, true) (rsL mk L) -> In (x, false) (rsL mk L) -> False).
  { intros x X1 X2. clear -NB X1 X2. induction (rsL mk L) as [|[y r] rs IH]; [destruct X1|]. cbn [map fst] in NB. inversion NB; subst.
    assert (Q : forall q, In (x, q) rs -> In (ba x) (map ba (map fst rs))) by (intros q I; apply in_map; apply in_map_iff; exists (x, q); auto).
    destruct X1 as [X1|X1], X2 as [X2|X2]; try congruence; auto.
    - inversion X1; subst. apply H1. eauto.
    - inversion X2; subst. apply H1. eauto. }
  assert (LS : forall i a, In a (ls' i) <-> exists f, In (f, false) (rsL mk L) /\ ba f = a /\ cls (bsz f) = i).
  { intros i a. unfold ls'. rewrite addfree_ls. unfold nolists. rewrite app_nil_r, <- in_rev, in_map_iff. split.
    - intros (f & Ef & If). apply filter_In in If. destruct If as [If Cf]. apply frees_in in If. exists f. split; auto. split; auto. lia.
    - intros (f & If & Ef & Cf). exists f. split; auto. apply filter_In. rewrite frees_in. split; auto. lia. }
  assert (FR : forall a, free ls' a <-> exists f, In (f, false) (rsL mk L) /\ ba f = a).
  { intro a. split.
    - intros (i & I & Q). apply LS in Q. destruct Q as (f & F1 & F2 & _). exists f. auto.
    - intros (f & F1 & F2). exists (cls (bsz f)). split; [|apply LS; exists f; auto]. pose proof (bsz_pos _ _ _ P' (I1 _ _ F1)). unfold cls. destruct (bsz f / 32 <? 9) eqn:Q; lia. }
  assert (SP : forall x, In x (blocks (sweepL mk L)) -> In (x, true) (rsL mk L) \/ In (x, false) (rsL mk L)).
  { intros x X. rewrite EB in X. apply in_map_iff in X. destruct X as ([y r] & Ey & Y). cbn [fst] in Ey. subst y. destruct r; auto. }
  assert (KF : forall b, In (b, true) (rsL mk L) -> ~ free ls' (ba b)).
  { intros b Kb F. apply FR in F. destruct F as (f & F1 & F2). assert (f = b) by (apply U; eauto). subst f. eauto. }
  assert (KP : forall b, In b (blocks L) -> In (ptr b) M -> In (b, true) (rsL mk L)) by (intros b Ib Mb; apply rsL_keep; split; auto; apply isin_true; auto).
  assert (SM : forall b a, In (b, true) (rsL mk L) -> ba b < a < ba b + bsz b -> hm s' a = hm s a).
  { intros b a Kb Q. destruct (sl_keep _ _ _ _ D b Kb) as [_ Q2]. rewrite Q2 by auto. apply (mk_frame _ _ _ _ K). intros d Dd ->. pose proof (proj1 (rsL_keep _ _ _) Kb) as [Ib _]. pose proof (bsz_pos _ _ _ P Dd). assert (d = b) by (apply (block_same L 1 _ _ (ba d) P); auto; lia). subst d. lia. }
  exists N, s', (sweepL mk L), ls'. split; [exact A|]. constructor.
  - constructor; auto.
    + intros i a I Q. apply LS in Q. destruct Q as (f & F1 & F2 & F3). exists f. destruct (rsL_free _ _ _ F1) as [F4 F5]. split; eauto. split; auto. split; [congruence|]. split; auto. intro I9.
      destruct (block_chunk _ _ _ P' (I1 _ _ F1)) as (c & _ & _ & _ & _ & (k & K1 & K2) & _). unfold cls in F3. destruct (bsz f / 32 <? 9) eqn:Q; [|lia]. rewrite K2 in *. rewrite Z.mul_comm, Z.div_mul in F3 by lia. lia.
    + intros i I. unfold ls'. rewrite addfree_ls. unfold nolists. rewrite app_nil_r. apply (Permutation_NoDup (Permutation_rev _)). apply nodup_class. apply nodup_frees. auto.
    + intros i j a I J X Y. apply LS in X. apply LS in Y. destruct X as (f & F1 & F2 & F3). destruct Y as (e & G1 & G2 & G3). assert (f = e) by (apply U; eauto; congruence). congruence.
    + intros b o Ib O Nz F. destruct (SP b Ib) as [Kb|Fb]; [|destruct (rsL_free _ _ _ Fb) as [_ Q]; rewrite Q in O; destruct O].
      pose proof (proj1 (rsL_keep _ _ _) Kb) as [Ob Mb]. apply isin_true in Mb.
      assert (Ev : val (hm s') (ptr b + o) = val (hm s) (ptr b + o)) by (unfold val; rewrite (SM b); auto; apply (fld_loc _ _ _ _ OK b o Ob O)).
      rewrite Ev in *. assert (MC : In (val (hm s) (ptr b + o)) M) by (apply (mk_cl _ _ _ _ K (ptr b) o); auto; rewrite (g_flds _ _ _ _ OK) by auto; apply in_map_iff; exists o; auto).
      pose proof (IM _ MC) as Q. apply in_map_iff in Q. destruct Q as (d & Ed & Id). rewrite <- Ed in *. replace (ptr d - 8) with (ba d) in F by (unfold ptr; lia). apply (KF d); auto.
    + rewrite E2, E3. intros b Ib. destruct (SP b Ib) as [Kb|Fb]; [apply (hi_rng _ _ _ HI); apply (proj1 (proj1 (rsL_keep _ _ _) Kb))|].
      unfold rsL in Fb. apply in_flat_map in Fb. destruct Fb as (c & Ic & Fb). destruct (placed_ge _ _ _ P Ic) as (_ & _ & _ & _ & T). destruct (sweep_range _ _ _ _ _ _ T Fb) as (R1 & R2 & R3).
      destruct (tiles_first _ _ _ T ltac:(lia)) as [(x & X1 & X2) (y & Y1 & Y2)].
      assert (Bx : In x (blocks L)) by (apply in_blocks; exists c; auto). assert (By : In y (blocks L)) by (apply in_blocks; exists c; auto).
      pose proof (hi_rng _ _ _ HI x Bx). pose proof (hi_rng _ _ _ HI y By). unfold ptr in *. lia.
    + intro Q. apply (hi_ne _ _ _ HI). unfold sweepL in Q. apply map_eq_nil in Q. auto.
    + rewrite E5. apply (hi_exp _ _ _ HI).
    + rewrite E4. apply (hi_size _ _ _ HI).
  - intros b Ib Mb. pose proof (KP b Ib Mb) as Kb. split; eauto. split; auto. intros a Q. destruct (Z.eq_dec a (ba b)) as [->|Na]; [|apply (SM b); auto; lia].
    destruct (sl_keep _ _ _ _ D b Kb) as [Q2 _]. rewrite Q2. pose proof (ho_head _ _ _ _ OK b Ib) as Q3. replace (isin (ptr b) []) with false in Q3 by reflexivity. rewrite Z.add_0_r in Q3. auto.
  - intros b Ib. destruct (SP b Ib) as [Kb|Fb]; [left; destruct (proj1 (rsL_keep _ _ _) Kb) as [Q1 Q2]; split; auto; apply isin_true; auto|right; apply FR; exists b; auto].
  - intro a. apply sweepL_inside.
  - intros a Na. rewrite (sl_frame _ _ _ _ D) by (intros c Ic Q; apply Na; exists c; split; auto; lia). apply (mk_frame _ _ _ _ K). intros b Ib ->. apply Na. pose proof (bsz_pos _ _ _ P Ib). apply (block_in L 1 b); auto. lia.
  - exact E.
  - auto.
Qed.

Lemma Finalize_ok : forall push rest pre calls, exists N fs' calls', (forall fuel, (N <= fuel)%nat -> fin_loop fuel push pre rest calls = Ok (fs', calls')).
Proof.
  intros push.
  assert (MK : forall l fs, exists q, pushed l fs = q ++ fs /\ forallb fmarked q = true).
  { induction l as [|r l IH]; intro fs; [exists []; auto|]. cbn [pushed fold_left]. destruct (IH (RegisterFinalizer (fst r) (snd r) fs)) as (q & E & F). unfold pushed in E. rewrite E. exists (q ++ [{| fobj := fst r; ffin := snd r; fmarked := true |}]). rewrite <- app_assoc. split; auto. rewrite forallb_app, F. reflexivity. }
  assert (AUX : forall rest x pre calls, exists N fs' calls', (forall fuel, (N <= fuel)%nat -> fin_loop fuel push (x :: pre) rest calls = Ok (fs', calls'))).
  { induction rest as [|n rest IH]; intros x pre calls.
    - exists 1%nat. eexists. eexists. intros fuel F. destruct fuel; [lia|]. reflexivity.
    - destruct (fmarked n) eqn:E.
      + destruct (IH n (x :: pre) calls) as (N & fs' & c' & A). exists (S N), fs', c'. intros fuel F. destruct fuel; [lia|]. cbn [fin_loop]. rewrite E. apply A. lia.
      + set (calls1 := (fobj n, ffin n) :: calls). destruct (MK (push calls1) (rev (x :: pre))) as (q & Q & _). assert (R : rev (pushed (push calls1) (rev (x :: pre))) = x :: (pre ++ rev q)) by (rewrite Q, rev_app_distr, rev_involutive; reflexivity).
        destruct (IH x (pre ++ rev q) calls1) as (N & fs' & c' & A). exists (S N), fs', c'. intros fuel F. destruct fuel; [lia|]. cbn [fin_loop]. rewrite E. cbn [negb]. fold calls1. rewrite R. apply A. lia. }
  assert (AU2 : forall k rest calls, (length (filter (fun n => negb (fmarked n)) rest) <= k)%nat -> exists N fs' calls', (forall fuel, (N <= fuel)%nat -> fin_loop fuel push [] rest calls = Ok (fs', calls'))).
  { induction k as [|k IH]; intros rest calls Hk; (destruct rest as [|n rest]; [exists 1%nat; eexists; eexists; intros fuel F; destruct fuel; [lia|]; reflexivity|]); cbn [filter] in Hk; destruct (fmarked n) eqn:E; cbn [negb length] in Hk; try lia;
      try (destruct (AUX rest n [] calls) as (N & fs' & c' & A); exists (S N), fs', c'; intros fuel F; destruct fuel; [lia|]; cbn [fin_loop]; rewrite E; apply A; lia).
    set (calls1 := (fobj n, ffin n) :: calls). destruct (MK (push calls1) rest) as (q & Q & Qm). destruct (IH (pushed (push calls1) rest) calls1) as (N & fs' & c' & A).
    - rewrite Q, filter_app, app_length. replace (filter (fun n => negb (fmarked n)) q) with (@nil finnode); [cbn [length]; lia|]. clear - Qm. induction q as [|x q IH]; auto. cbn [forallb] in Qm. apply andb_true_iff in Qm. destruct Qm as [Q1 Q2]. cbn [filter]. rewrite Q1. auto.
    - exists (S N), fs', c'. intros fuel F. destruct fuel; [lia|]. cbn [fin_loop]. rewrite E. cbn [negb]. fold calls1. apply A. lia. }
  intros rest [|x pre] calls; [apply (AU2 (length (filter (fun n => negb (fmarked n)) rest))); lia|apply AUX].
Qed.
Lemma GC_spec : forall s L ls push roots ws fs calls, hinv s L ls -> Forall (fun q => q = 0 \/ In q (map ptr (blocks L))) roots -> (forall n, In n fs -> In (fobj n) (map ptr (blocks L))) ->
  exists N s' L' ls' M M1 fs1 fs' calls', (forall fuel, (N <= fuel)%nat -> GC fuel push roots ws s fs calls = Ok (s', fs', calls')) /\ collected s L M s' L' ls' /\
    (forall x, In x M1 <-> exists q, root_of L roots ws q /\ reach (graph_of (hm s) L) q x) /\ (forall x, In x M <-> In x M1 \/ exists n, In n fs /\ reach (graph_of (hm s) L) (fobj n) x) /\
    map fobj fs1 = map fobj fs /\ map ffin fs1 = map ffin fs /\
    (forall l1 n l2, fs = l1 ++ n :: l2 -> exists l1' l2' n', fs1 = l1' ++ n' :: l2' /\ length l1' = length l1 /\ fobj n' = fobj n /\ ffin n' = ffin n /\ (fmarked n' = true <-> In (fobj n) M1 \/ exists e, In e l1 /\ reach (graph_of (hm s) L) (fobj e) (fobj n))) /\
    (forall fuel, (N <= fuel)%nat -> Finalize fuel push fs1 calls = Ok (fs', calls')).
Proof.
  intros s L ls push roots ws fs calls HI VR VF. pose proof (hi_ok _ _ _ HI) as OK.
  assert (K0 : marking (hm s) L (hm s) []) by (apply (marking_start _ _ _ _ OK); [constructor|intros ? []|intros ? ? ? []]).
  destruct (mk_roots _ _ _ _ OK roots (hm s) [] K0 VR) as (N1 & m1 & M1 & A1 & B1 & C1).
  destruct (ms_loop_spec _ _ _ _ OK 10000 (hmin s) (hmax s) ws [] m1 M1 (hi_rng _ _ _ HI) ltac:(lia) B1) as (N2 & m2 & M2 & A2 & B2 & C2).
  destruct (CheckFin_spec _ _ _ OK fs m2 M2 B2 VF) as (N3 & m3 & M3 & fs1 & A3 & B3 & C3 & D3 & E3 & F3).
  destruct (sweep_all s L ls m3 M3 HI B3) as (N4 & s' & L' & ls' & A4 & B4).
  destruct (Finalize_ok push fs1 [] calls) as (N5 & fs' & calls' & A5).
  exists (N1 + N2 + N3 + N4 + N5)%nat, s', L', ls', M3, M2, fs1, fs', calls'. split; [|split; [|split; [|split; [|split; [|split; [|split]]]]]]; auto.
  - intros fuel F. unfold GC. rewrite A1 by lia. rewrite bind_ok. unfold MarkStack. cbn [setmem heap hmin hmax hm]. rewrite A2 by lia. rewrite bind_ok. rewrite A3 by lia. rewrite bind_ok. cbv iota beta. rewrite A4 by lia. rewrite bind_ok. unfold Finalize. rewrite A5 by lia. rewrite bind_ok. reflexivity.
  - intro x. rewrite C2, C1. cbn [In app]. unfold root_of. split.
    + intros [[[]|(q & Q & R)]|(b & Ib & (w & Iw & Hw) & R)]; [exists q; auto|]. exists (ptr b). split; auto. right. exists b, w. auto.
    + intros (q & [Q|(b & w & Ib & Iw & Hw & ->)] & R); [left; right; exists q; auto|]. right. exists b. split; auto. split; auto. exists w. auto.
  - intros fuel F. unfold Finalize. apply A5. lia.
Qed.
