From Verif Require Import Base ArrZ HeapModel HeapSpec MarkProofs.

(** * Geometry *)
Lemma tiles_le : forall bs a e, tiles a bs e -> a <= e.
Proof. induction bs as [|b r IH]; intros a e H; cbn [tiles] in H; [lia|]. destruct H as (A & (k & B & C) & D). specialize (IH _ _ D). lia. Qed.
Lemma tiles_in : forall bs a e b, tiles a bs e -> In b bs -> a <= ba b /\ ba b + bsz b <= e /\ exists k, 1 <= k /\ bsz b = 32 * k.
Proof.
  induction bs as [|b0 r IH]; intros a e b H I; [destruct I|]. cbn [tiles] in H. destruct H as (A & (k & B & C) & D). pose proof (tiles_le _ _ _ D). destruct I as [->|I].
  - split; [lia|]. split; [lia|]. exists k; auto.
  - destruct (IH _ _ _ D I) as (E & F & G). conjs; auto; lia.
Qed.
Lemma tiles_mod : forall bs a e b, tiles a bs e -> In b bs -> exists k, ba b = a + 32 * k.
Proof.
  induction bs as [|b0 r IH]; intros a e b H I; [destruct I|]. cbn [tiles] in H. destruct H as (A & (k & B & C) & D). destruct I as [->|I]; [exists 0; lia|].
  destruct (IH _ _ _ D I) as (j & E). exists (k + j). lia.
Qed.
Lemma tiles_disj : forall bs a e b c, tiles a bs e -> In b bs -> In c bs -> b = c \/ ba b + bsz b <= ba c \/ ba c + bsz c <= ba b.
Proof.
  induction bs as [|b0 r IH]; intros a e b c H I J; [destruct I|]. cbn [tiles] in H. destruct H as (A & B & D).
  destruct I as [<-|I]; destruct J as [<-|J]; auto.
  - destruct (tiles_in _ _ _ _ D J) as (E & _). lia.
  - destruct (tiles_in _ _ _ _ D I) as (E & _). lia.
  - eapply IH; eauto.
Qed.
Lemma tiles_app : forall p a q e, tiles a (p ++ q) e <-> exists x, tiles a p x /\ tiles x q e.
Proof.
  induction p as [|b p IH]; intros a q e; cbn [app tiles].
  - split; [intro H; exists a; auto|intros (x & -> & H); auto].
  - rewrite IH. split.
    + intros (A & B & x & C & D). exists x. auto.
    + intros (x & (A & B & C) & D). split; auto. split; auto. exists x. auto.
Qed.
Lemma placed_ge : forall L lo c, placed lo L -> In c L -> lo <= ca c /\ ca c + 24 <= ce c /\ (exists k, ca c = 16 * k) /\ 0 < ca c /\ tiles (ca c + 24) (cb c) (ce c).
Proof.
  induction L as [|d L IH]; intros lo c H I; [destruct I|]. cbn [placed] in H. destruct H as (A & P & B & D & E). pose proof (tiles_le _ _ _ D). destruct I as [->|I]; [conjs; auto; lia|].
  destruct (IH _ _ E I) as (F & G & K & Q & T). conjs; auto; lia.
Qed.
Lemma placed_disj : forall L lo c d, placed lo L -> In c L -> In d L -> c = d \/ ce c <= ca d \/ ce d <= ca c.
Proof.
  induction L as [|x L IH]; intros lo c d H I J; [destruct I|]. cbn [placed] in H. destruct H as (A & P & B & D & E).
  destruct I as [<-|I]; destruct J as [<-|J]; auto.
  - destruct (placed_ge _ _ _ E J). lia.
  - destruct (placed_ge _ _ _ E I). lia.
  - eapply IH; eauto.
Qed.
Lemma in_blocks : forall L b, In b (blocks L) <-> exists c, In c L /\ In b (cb c).
Proof. intros. unfold blocks. apply in_flat_map. Qed.
(** A block and its chunk. *)
Lemma block_chunk : forall L lo b, placed lo L -> In b (blocks L) -> exists c, In c L /\ In b (cb c) /\ ca c + 24 <= ba b /\ ba b + bsz b <= ce c /\ (exists k, 1 <= k /\ bsz b = 32 * k) /\ (exists k, ba b = 8 * k) /\ (exists k, ptr b = 16 * k) /\ lo < ba b.
Proof.
  intros L lo b H I. apply in_blocks in I. destruct I as (c & I & J). destruct (placed_ge _ _ _ H I) as (A & B & (k & C) & P & T). destruct (tiles_in _ _ _ _ T J) as (D & E & F). destruct (tiles_mod _ _ _ _ T J) as (j & G).
  exists c. conjs; [exists (2 * k + 3 + 4 * j); lia|exists (k + 2 + 2 * j); unfold ptr; lia].
Qed.
Lemma block_disj : forall L lo b d, placed lo L -> In b (blocks L) -> In d (blocks L) -> b = d \/ ba b + bsz b <= ba d \/ ba d + bsz d <= ba b.
Proof.
  intros L lo b d H I J. apply in_blocks in I. apply in_blocks in J. destruct I as (c & I & I'). destruct J as (c' & J & J').
  destruct (placed_ge _ _ _ H I) as (_ & _ & _ & _ & T). destruct (placed_ge _ _ _ H J) as (_ & _ & _ & _ & T').
  destruct (placed_disj _ _ _ _ H I J) as [->|D].
  - eapply tiles_disj; eauto.
  - destruct (tiles_in _ _ _ _ T I') as (A & B & _). destruct (tiles_in _ _ _ _ T' J') as (A' & B' & _). lia.
Qed.
Lemma block_in : forall L lo b a, placed lo L -> In b (blocks L) -> ba b <= a < ba b + bsz b -> inside L a.
Proof. intros L lo b a H I A. destruct (block_chunk _ _ _ H I) as (c & B & _ & C & D & _). exists c. split; auto. lia. Qed.
(** Equal addresses: the same block. *)
Lemma block_same : forall L lo b d a, placed lo L -> In b (blocks L) -> In d (blocks L) -> ba b <= a < ba b + bsz b -> ba d <= a < ba d + bsz d -> b = d.
Proof. intros L lo b d a H I J A B. destruct (block_disj _ _ _ _ H I J) as [E|E]; auto. lia. Qed.
Lemma bsz_pos : forall L lo b, placed lo L -> In b (blocks L) -> 32 <= bsz b.
Proof. intros L lo b H I. destruct (block_chunk _ _ _ H I) as (c & _ & _ & _ & _ & (k & A & B) & _). lia. Qed.
Lemma ptr_inj : forall L lo b d, placed lo L -> In b (blocks L) -> In d (blocks L) -> ptr b = ptr d -> b = d.
Proof. intros L lo b d H I J E. unfold ptr in E. pose proof (bsz_pos _ _ _ H I). pose proof (bsz_pos _ _ _ H J). apply (block_same _ _ _ _ (ba b) H I J); lia. Qed.
(** Chunk headers are not inside blocks. *)
Lemma header_not_block : forall L lo c b a, placed lo L -> In c L -> In b (blocks L) -> ca c <= a < ca c + 24 -> ~ (ba b <= a < ba b + bsz b).
Proof.
  intros L lo c b a H I J A B. destruct (block_chunk _ _ _ H J) as (d & D & _ & E & F & _). destruct (placed_ge _ _ _ H I) as (_ & G & _). destruct (placed_disj _ _ _ _ H I D) as [->|Q]; lia.
Qed.
Lemma blk_at_in : forall L lo b, placed lo L -> In b (blocks L) -> blk_at L (ptr b) = Some b.
Proof.
  intros L lo b H I. unfold blk_at. destruct (find (fun b0 => ptr b0 =? ptr b) (blocks L)) as [d|] eqn:F.
  - apply find_some in F. destruct F as [F1 F2]. f_equal. apply (ptr_inj L lo); auto. lia.
  - pose proof (find_none _ _ F b I) as N. cbn beta in N. lia.
Qed.

(** * Words *)
Lemma words_app : forall m p a q, words m a (p ++ q) <-> words m a p /\ words m (a + 8 * zlen p) q.
Proof.
  intros m. induction p as [|w p IH]; intros a q; cbn [app words].
  - rewrite zlen_nil. replace (a + 8 * 0) with a by lia. tauto.
  - rewrite IH, zlen_cons. replace (a + 8 + 8 * zlen p) with (a + 8 * (1 + zlen p)) by lia. tauto.
Qed.
Lemma words_frame : forall m m' ws a, (forall k, 0 <= k < zlen ws -> m' (a + 8 * k) = m (a + 8 * k)) -> words m a ws -> words m' a ws.
Proof.
  intros m m'. induction ws as [|w ws IH]; intros a F H; [exact I|]. cbn [words] in *. rewrite zlen_cons in F. pose proof (zlen_nonneg _ ws). destruct H as [A B]. split.
  - specialize (F 0 ltac:(lia)). replace (a + 8 * 0) with a in F by lia. congruence.
  - apply IH; auto. intros k Hk. specialize (F (k + 1) ltac:(lia)). replace (a + 8 + 8 * k) with (a + 8 * (k + 1)) by lia. auto.
Qed.
Lemma table_len : forall b, zlen (table b) = zlen (bofs b) + 2.
Proof. intro b. unfold table. rewrite zlen_cons, zlen_app, zlen_cons, zlen_nil. lia. Qed.

(** * The object graph of a heap *)
Section G.
Variables (m : mem) (h : Z) (L : list chunk) (M : list Z).
Hypothesis H : heapok m h L M.
Let g := graph_of m L.
Let P := ho_placed _ _ _ _ H.

Lemma g_objs : forall x, In x (objs g) -> exists b, In b (blocks L) /\ x = ptr b /\ blk_at L x = Some b.
Proof. intros x I. cbn in I. apply in_map_iff in I. destruct I as (b & E & I). exists b. split; auto. split; auto. subst x. apply (blk_at_in L 1); auto. Qed.
Lemma g_desc : forall b, In b (blocks L) -> desc g (ptr b) = btag b.
Proof. intros b I. cbn. rewrite (blk_at_in L 1); auto. Qed.
Lemma g_flds : forall b, In b (blocks L) -> flds g (ptr b) = map (fun o => (o, val m (ptr b + o))) (bofs b).
Proof. intros b I. cbn. rewrite (blk_at_in L 1); auto. Qed.
Lemma g_fld_len : forall b, In b (blocks L) -> zlen (flds g (ptr b)) = zlen (bofs b).
Proof. intros b I. rewrite g_flds by auto. unfold zlen. rewrite map_length. reflexivity. Qed.
Lemma g_fld_in : forall b o c, In b (blocks L) -> In (o, c) (flds g (ptr b)) -> In o (bofs b) /\ c = val m (ptr b + o).
Proof. intros b o c I J. rewrite g_flds in J by auto. apply in_map_iff in J. destruct J as (o' & E & J). inversion E; subst. auto. Qed.

(** Where the words of a descriptor are: none is a block header, a chunk header or a pointer field. *)
Lemma tab_loc : forall b d k, In b (blocks L) -> In d (blocks L) -> 0 <= k <= zlen (bofs b) + 1 ->
  btag b + 8 * k <> ba d /\ (forall o, In o (bofs d) -> btag b + 8 * k <> ptr d + o).
Proof.
  intros b d k I J K. pose proof (ho_wf _ _ _ _ H b I) as W. pose proof (ho_wf _ _ _ _ H d J) as Wd. pose proof (bsz_pos _ _ _ P J). pose proof (bsz_pos _ _ _ P I).
  destruct (wf_tab _ _ W) as [T|(T1 & T2 & T3)].
  - specialize (T k K). split.
    + intro E. apply T. apply (block_in L 1 d); auto. lia.
    + intros o O E. apply T. apply (block_in L 1 d); auto. destruct (wf_ofs _ _ Wd o O). unfold ptr in *. lia.
  - unfold ptr in *. split.
    + intro E. assert (b = d) by (apply (block_same L 1 _ _ (ba d) P); auto; lia). subst d. lia.
    + intros o O E. destruct (wf_ofs _ _ Wd o O). assert (b = d) by (apply (block_same L 1 _ _ (btag b + 8 * k) P); auto; unfold ptr in *; lia). subst d. specialize (T3 o O). lia.
Qed.
Lemma tab_nohdr : forall b c k, In b (blocks L) -> In c L -> 0 <= k <= zlen (bofs b) + 1 -> ~ (ca c <= btag b + 8 * k < ca c + 24).
Proof.
  intros b c k I J K E. pose proof (ho_wf _ _ _ _ H b I) as W. destruct (placed_ge _ _ _ P J) as (_ & Q & _).
  destruct (wf_tab _ _ W) as [T|(T1 & T2 & T3)].
  - apply (T k K). exists c. split; auto. lia.
  - apply (header_not_block L 1 c b _ P J I E). unfold ptr in *. lia.
Qed.
Lemma fld_loc : forall b o, In b (blocks L) -> In o (bofs b) -> ba b < ptr b + o < ba b + bsz b.
Proof. intros b o I O. destruct (wf_ofs _ _ (ho_wf _ _ _ _ H b I) o O). unfold ptr in *. lia. Qed.

Lemma heap_apart : apart g.
Proof.
  constructor.
  - intros x y o c Ix Iy If. destruct (g_objs x Ix) as (b & B & -> & _). destruct (g_objs y Iy) as (d & D & -> & _). apply g_fld_in in If; auto. destruct If as [O _].
    pose proof (fld_loc d o D O). pose proof (bsz_pos _ _ _ P B). intro E. unfold ptr in *. assert (b = d) by (apply (block_same L 1 _ _ (ba b) P); auto; lia). subst d. lia.
  - intros x y Ix Iy (k & K & E). destruct (g_objs x Ix) as (b & B & -> & _). destruct (g_objs y Iy) as (d & D & -> & _). rewrite g_fld_len in K by auto. rewrite g_desc in E by auto.
    destruct (tab_loc d b (k + 1) D B ltac:(lia)) as [Q _]. unfold ptr in E. lia.
  - intros x y o c Ix Iy If (k & K & E). destruct (g_objs x Ix) as (b & B & -> & _). destruct (g_objs y Iy) as (d & D & -> & _). rewrite g_fld_len in K by auto. rewrite g_desc in E by auto.
    apply g_fld_in in If; auto. destruct If as [O _]. destruct (tab_loc d b (k + 1) D B ltac:(lia)) as [_ Q]. specialize (Q o O). lia.
  - intros x y o c o' c' Ix Iy If If' E. destruct (g_objs x Ix) as (b & B & -> & _). destruct (g_objs y Iy) as (d & D & -> & _). apply g_fld_in in If; auto. apply g_fld_in in If'; auto.
    destruct If as [O _]. destruct If' as [O' _]. pose proof (fld_loc b o B O). pose proof (fld_loc d o' D O'). f_equal. apply (block_same L 1 _ _ (ptr b + o) P); auto; lia.
  - intros x Ix. destruct (g_objs x Ix) as (b & B & -> & _). rewrite g_flds by auto. rewrite map_map. cbn [fst]. rewrite map_id. apply (wf_nd _ _ (ho_wf _ _ _ _ H b B)).
Qed.
Lemma fld_mapped : forall b o, In b (blocks L) -> In o (bofs b) -> m (ptr b + o) = Some (val m (ptr b + o)).
Proof.
  intros b o B O. pose proof (fld_loc b o B O) as F. destruct (wf_ofs _ _ (ho_wf _ _ _ _ H b B) o O) as (_ & _ & k & K). destruct (block_chunk _ _ _ P B) as (_ & _ & _ & _ & _ & _ & (j & J) & _).
  assert (N : m (ptr b + o) <> None). { apply (ho_map _ _ _ _ H). - apply (block_in L 1 b); auto. lia. - exists (j + 1 + k). unfold ptr. lia. }
  unfold val. destruct (m (ptr b + o)); congruence.
Qed.
Lemma heap_shows : shows m g M.
Proof.
  constructor.
  - intros x Ix. destruct (g_objs x Ix) as (b & B & -> & _). rewrite g_desc by auto. replace (ptr b - 8) with (ba b) by (unfold ptr; lia). apply (ho_head _ _ _ _ H b B).
  - intros x Ix. destruct (g_objs x Ix) as (b & B & -> & _). rewrite g_desc by auto. split; [|apply (wf_even _ _ (ho_wf _ _ _ _ H b B))].
    destruct (block_chunk _ _ _ P B) as (c & _ & _ & _ & _ & _ & _ & _ & Q). unfold ptr. lia.
  - intros x l1 o c l2 Ix E. destruct (g_objs x Ix) as (b & B & -> & _). rewrite g_flds in E by auto. rewrite g_desc by auto.
    assert (E2 : bofs b = map fst l1 ++ o :: map fst l2). { apply (f_equal (map fst)) in E. rewrite map_map in E. cbn [fst] in E. rewrite map_id, map_app in E. exact E. }
    pose proof (ho_tab _ _ _ _ H b B) as T. unfold table in T. cbn [words] in T. destruct T as [_ T]. rewrite E2, <- app_assoc in T. apply words_app in T. destruct T as [_ T]. cbn [app words] in T.
    replace (zlen (map fst l1)) with (zlen l1) in T by (unfold zlen; rewrite map_length; auto). split; [apply T|]. apply (wf_ofs _ _ (ho_wf _ _ _ _ H b B)). rewrite E2. apply in_or_app. right. left. auto.
  - intros x Ix. destruct (g_objs x Ix) as (b & B & -> & _). rewrite g_fld_len, g_desc by auto. pose proof (ho_tab _ _ _ _ H b B) as T. unfold table in T. cbn [words] in T. destruct T as [_ T]. apply words_app in T. destruct T as [_ T]. cbn [words] in T. apply T.
  - intros x o c Ix If. destruct (g_objs x Ix) as (b & B & -> & _). apply g_fld_in in If; auto. destruct If as [O ->]. split; [apply fld_mapped; auto|].
    destruct (ho_fld _ _ _ _ H b o B O) as [Q|Q]; auto.
Qed.

End G.

(** * Marking in a heap *)
(** While marking: memory differs from [m0] in block headers only. *)
Record marking (m0 : mem) (L : list chunk) (m : mem) (M : list Z) : Prop := {
  mk_frame : forall a, (forall b, In b (blocks L) -> a <> ba b) -> m a = m0 a;
  mk_shows : shows m (graph_of m0 L) M;
  mk_nd : NoDup M;
  mk_in : incl M (map ptr (blocks L));
  mk_cl : mclosed (graph_of m0 L) M
}.
Section MK.
Variables (m0 : mem) (h : Z) (L : list chunk) (M0 : list Z).
Hypothesis H : heapok m0 h L M0.
Let g := graph_of m0 L.
Let P := ho_placed _ _ _ _ H.

Lemma marking_start : NoDup M0 -> incl M0 (map ptr (blocks L)) -> mclosed g M0 -> marking m0 L m0 M0.
Proof. intros A B C. constructor; auto. apply (heap_shows _ _ _ _ H). Qed.
Lemma mk_head : forall m M b, marking m0 L m M -> In b (blocks L) -> m (ba b) = Some (btag b + if isin (ptr b) M then 1 else 0).
Proof.
  intros m M b K B. pose proof (sh_head _ _ _ (mk_shows _ _ _ _ K) (ptr b) (in_map ptr _ _ B)) as Q. rewrite (g_desc _ _ _ _ H) in Q by auto.
  replace (ptr b - 8) with (ba b) in Q by (unfold ptr; lia). exact Q.
Qed.
Lemma mk_odd : forall m M b, marking m0 L m M -> In b (blocks L) -> Z.odd (btag b + if isin (ptr b) M then 1 else 0) = isin (ptr b) M.
Proof.
  intros m M b K B. pose proof (wf_even _ _ (ho_wf _ _ _ _ H b B)) as E. destruct (isin (ptr b) M); [rewrite odd_S, E|rewrite Z.add_0_r, E]; reflexivity.
Qed.
Lemma mk_tab : forall m M b, marking m0 L m M -> In b (blocks L) -> words m (btag b) (table b).
Proof.
  intros m M b K B. apply (words_frame m0); [|apply (ho_tab _ _ _ _ H); auto]. intros k Hk. rewrite table_len in Hk. apply (mk_frame _ _ _ _ K). intros d D. apply (tab_loc m0 h L M0 H b d k B D). lia.
Qed.
Lemma mk_size : forall m M b, marking m0 L m M -> In b (blocks L) -> m (btag b) = Some (bsz b).
Proof. intros m M b K B. apply (mk_tab m M b K B). Qed.
Lemma mk_hdr : forall m M c a, marking m0 L m M -> In c L -> ca c <= a < ca c + 24 -> m a = m0 a.
Proof.
  intros m M c a K I A. apply (mk_frame _ _ _ _ K). intros b B E. apply (header_not_block L 1 c b a P I B A). pose proof (bsz_pos _ _ _ P B). lia.
Qed.
(** One call of [Mark]. *)
Lemma mk_Mark : forall m M q, marking m0 L m M -> q = 0 \/ In q (map ptr (blocks L)) ->
  exists N m' M', (forall fuel, (N <= fuel)%nat -> Mark fuel m q = Ok m') /\ marking m0 L m' M' /\ (forall x, In x M' <-> In x M \/ reach g q x).
Proof.
  intros m M q K Q. destruct (Mark_spec g m M q (heap_apart _ _ _ _ H) (mk_shows _ _ _ _ K) (mk_nd _ _ _ _ K) (mk_in _ _ _ _ K) (mk_cl _ _ _ _ K) Q) as (N & m' & M' & A & B & C & D & E & F & G).
  exists N, m', M'. split; auto. split; auto. constructor; auto. intros a Ha. rewrite G; [apply (mk_frame _ _ _ _ K); auto|]. intros x Ix.
  destruct (g_objs _ _ _ _ H x Ix) as (b & I & -> & _). replace (ptr b - 8) with (ba b) by (unfold ptr; lia). apply Ha; auto.
Qed.
Lemma mk_roots : forall roots m M, marking m0 L m M -> Forall (fun q => q = 0 \/ In q (map ptr (blocks L))) roots ->
  exists N m' M', (forall fuel, (N <= fuel)%nat -> mark_roots fuel m roots = Ok m') /\ marking m0 L m' M' /\ (forall x, In x M' <-> In x M \/ exists q, In q roots /\ reach g q x).
Proof.
  induction roots as [|q roots IH]; intros m M K F.
  - exists 0%nat, m, M. split; [reflexivity|]. split; auto. intro x. split; auto. intros [X|(q & [] & _)]; auto.
  - inversion F; subst. destruct (mk_Mark m M q K H2) as (N1 & m1 & M1 & A1 & B1 & C1). destruct (IH m1 M1 B1 H3) as (N2 & m2 & M2 & A2 & B2 & C2).
    exists (N1 + N2)%nat, m2, M2. split; [|split; auto].
    + intros fuel Lf. cbn [mark_roots]. rewrite A1 by lia. rewrite bind_ok. apply A2. lia.
    + intro x. rewrite C2, C1. split.
      * intros [[X|X]|(r & R1 & R2)]; auto; right; [exists q|exists r]; split; auto; [left|right]; auto.
      * intros [X|(r & [<-|R1] & R2)]; auto. right. eauto.
Qed.
End MK.
