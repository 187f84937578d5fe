From Verif Require Import Base ArrZ HeapModel HeapSpec MarkProofs LayProofs SortProofs ScanProofs AllocProofs CarveProofs.

Lemma placed_insert : forall n q p lo, placed lo (p ++ q) -> (forall d, In d p -> ce d <= ca n) -> lo <= ca n -> (forall d, In d q -> ce n <= ca d) ->
  0 < ca n -> (exists k, ca n = 16 * k) -> tiles (ca n + 24) (cb n) (ce n) -> placed lo (p ++ n :: q).
Proof.
  intros n q. induction p as [|d p IH]; intros lo H Hp Lo Hq N0 N1 N2; cbn [app placed] in *.
  - split; auto. split; auto. split; auto. split; auto. destruct q as [|d q]; cbn [placed] in *; auto. destruct H as (A & B & C & D & E). split; [apply Hq; left; auto|]. auto.
  - destruct H as (A & B & C & D & E). split; auto. split; auto. split; auto. split; auto. apply IH; auto; [intros; apply Hp; right; auto|apply Hp; left; auto].
Qed.
Lemma find_chunk_spec : forall (m : mem) c L2 j next lo, chained m next L2 -> placed lo L2 ->
  exists N p q nx, L2 = p ++ q /\ (forall d, In d p -> ca d < c) /\ (forall d, In d q -> c <= ca d) /\ chained m nx q /\ forall fuel, (N <= fuel)%nat -> find_chunk fuel m j next c = Ok (last (map ca p) j, nx).
Proof.
  intros m c. induction L2 as [|d L2 IH]; intros j next lo C P; cbn [chained placed] in *.
  - subst next. exists 1%nat, [], [], 0. split; auto. split; [intros ? []|]. split; [intros ? []|]. split; [reflexivity|]. intros fuel F. destruct fuel as [|fuel]; [lia|]. reflexivity.
  - destruct C as (-> & C1 & nx & C2 & C3). destruct P as (P1 & P2 & P3 & P4 & P5). pose proof (tiles_le _ _ _ P4) as Te. destruct (ca d <? c) eqn:E.
    + destruct (IH (ca d) nx (ce d) C3 P5) as (N & p & q & nx' & A & B & D & G & H). exists (S N), (d :: p), q, nx'. split; [cbn [app]; congruence|]. split; [intros x [<-|X]; [lia|auto]|]. split; auto. split; auto.
      intros fuel F. destruct fuel as [|fuel]; [lia|]. cbn [find_chunk]. replace (ca d =? 0) with false by lia. rewrite E. cbn [negb andb]. rewrite (get_ok _ _ _ C2), bind_ok. rewrite H by lia. do 2 f_equal.
      destruct p as [|y p]; [reflexivity|]. cbn [map]. change (last (ca d :: ca y :: map ca p) j) with (last (ca y :: map ca p) j). apply last_any. discriminate.
    + exists 1%nat, [], (d :: L2), (ca d). split; auto. split; [intros ? []|]. split.
      * intros x [<-|X]; [lia|]. destruct (placed_ge _ _ _ P5 X). lia.
      * split; [cbn [chained]; split; auto; split; auto; exists nx; auto|]. intros fuel F. destruct fuel as [|fuel]; [lia|]. cbn [find_chunk]. replace (ca d =? 0) with false by lia. rewrite E. reflexivity.
Qed.
Lemma chained_insert : forall (m m' : mem) n q nx p h, chained m h (p ++ q) -> p <> [] -> NoDup (map ca p) -> m' (last (map ca p) 0) = Some (ca n) -> m' (ca n) = Some nx -> m' (ca n + 8) = Some (ce n) -> chained m' nx q ->
  (forall d, In d p -> m' (ca d + 8) = m (ca d + 8)) -> (forall d, In d p -> ca d <> last (map ca p) 0 -> m' (ca d) = m (ca d)) -> chained m' h (p ++ n :: q).
Proof.
  intros m m' n q nx. induction p as [|d p IH]; intros h C NE ND H1 H2 H3 H4 H5 H6; [congruence|]. cbn [app chained] in C |- *. destruct C as (-> & C1 & n1 & C2 & C3). split; auto. rewrite H5 by (left; auto). split; auto.
  destruct p as [|y p].
  - cbn [map last app chained] in *. exists (ca n). split; auto. split; auto. split; auto. exists nx. auto.
  - change (last (map ca (d :: y :: p)) 0) with (last (map ca (y :: p)) 0) in *. exists n1. inversion ND; subst. split.
    + rewrite H6; [auto|left; auto|]. intro Q. apply H7. rewrite Q. change (ca y :: map ca p) with (map ca (y :: p)). apply last_in. discriminate.
    + apply IH; auto; [discriminate| |]; intros x X; [apply H5|apply H6]; right; auto.
Qed.
Lemma chained_frame2 : forall (m m' : mem) L lo h, placed lo L -> (forall d a, In d L -> ca d <= a < ca d + 24 -> (exists k, a = 8 * k) -> m' a = m a) -> chained m h L -> chained m' h L.
Proof.
  intros m m'. induction L as [|d L IH]; intros lo h P G Ch; cbn [chained placed] in *; auto. destruct P as (Q1 & Q2 & (i & Q3) & Q4 & Q5). destruct Ch as (-> & A & nx & B & C). split; auto.
  rewrite (G d (ca d + 8)) by (try (left; reflexivity); try (exists (2 * i + 1)); lia). split; auto. exists nx. rewrite (G d (ca d)) by (try (left; reflexivity); try (exists (2 * i)); lia). split; auto. apply (IH (ce d)); auto. intros x a X. apply G. right; auto.
Qed.
Lemma placed_ca_nodup : forall L lo, placed lo L -> NoDup (map ca L).
Proof.
  induction L as [|c L IH]; intros lo P; cbn [placed map] in *; constructor.
  - destruct P as (_ & _ & _ & T & P). pose proof (tiles_le _ _ _ T). intro X. apply in_map_iff in X. destruct X as (d & E & D). destruct (placed_ge _ _ _ P D). lia.
  - apply (IH (ce c)). tauto.
Qed.

Lemma nodup_app_l : forall {A} (a b : list A), NoDup (a ++ b) -> NoDup a.
Proof. intros A. induction a as [|x a IH]; intros b H; [constructor|]. cbn [app] in H. inversion H; subst. constructor; [intro Q; apply H2; apply in_or_app; auto|apply (IH b); auto]. Qed.

Section EXT.
Variables (s : hst) (L : list chunk) (ls : Z -> list Z).
Hypothesis HI : hinv s L ls.
Let P := ho_placed _ _ _ _ (hi_ok _ _ _ HI).
Definition onbig (a : Z) : Z -> list Z := fun i => if i =? 9 then a :: ls 9 else ls i.
Definition newchunk (c size : Z) : chunk := {| ca := c; ce := c + 24 + size; cb := [freeb (c + 24) size] |}.
Lemma chunk_mapped : forall d, In d L -> hm s (ca d) <> None /\ hm s (ca d + 8) <> None.
Proof.
  intros d D. destruct (placed_ge _ _ _ P D) as (A & B & (k & C) & E & _).
  split; apply (ho_map _ _ _ _ (hi_ok _ _ _ HI)); try (exists d; split; auto; lia); [exists (2 * k)|exists (2 * k + 1)]; lia.
Qed.
Lemma insert_hinv : forall s' p q c size, L = p ++ q -> 0 < c -> (exists k, c = 16 * k) -> (exists k, 1 <= k /\ size = 32 * k) -> (forall a, c <= a < c + (size + 24) -> hm s a = None) ->
  (forall d, In d p -> ca d < c) -> (forall d, In d q -> c <= ca d) -> chained (hm s') (heap s') (p ++ newchunk c size :: q) ->
  (forall a, hm s a <> None -> (forall d, In d L -> a <> ca d) -> hm s' a = hm s a) -> (forall a, hm s a <> None -> hm s' a <> None) ->
  words (hm s') (c + 24) [c + 32; size; -8; big s] -> (forall a, c <= a < c + (size + 24) -> (exists k, a = 8 * k) -> hm s' a <> None) ->
  fl s' = fl s -> big s' = c + 24 -> hmin s' <= hmin s -> hmin s' <= c + 32 -> hmax s <= hmax s' -> c + 24 + size <= hmax s' -> hexp s' = hexp s -> hsize s' = hsize s + size ->
  hinv s' (p ++ newchunk c size :: q) (onbig (c + 24)).
Proof.
  intros s' p q c size EL C0 (ck & CK) (k & K1 & K2) Fre Hp Hq Ch Fr Dm W Mp Efl Ebg Mn1 Mn2 Mx1 Mx2 Eexp Esz.
  pose proof (hi_ok _ _ _ HI) as OK. pose proof (hi_ls _ _ _ HI) as [L1 L2 L3 L4]. set (n := newchunk c size).
  assert (BL : forall x, In x (blocks (p ++ n :: q)) <-> In x (blocks L) \/ x = freeb (c + 24) size).
  { intro x. rewrite EL. unfold blocks. rewrite !flat_map_app. cbn [flat_map n newchunk cb]. rewrite !in_app_iff. cbn [In]. intuition. }
  assert (IN : forall a, inside (p ++ n :: q) a -> inside L a \/ c <= a < c + 24 + size).
  { intros a (d & D & A). rewrite EL. apply in_app_or in D. destruct D as [D|[<-|D]]; [left; exists d; split; auto; apply in_or_app; auto|right; exact A|left; exists d; split; auto; apply in_or_app; auto]. }
  assert (Hp2 : forall d, In d p -> ce d <= c).
  { intros d D. assert (Dl : In d L) by (rewrite EL; apply in_or_app; auto). destruct (Z_lt_le_dec c (ce d)) as [Q|Q]; auto. exfalso. apply (ho_map _ _ _ _ OK c); [exists d; split; auto; specialize (Hp d D); lia|exists (2 * ck); lia|]. apply Fre. lia. }
  assert (Hq2 : forall d, In d q -> c + 24 + size <= ca d).
  { intros d D. assert (Dl : In d L) by (rewrite EL; apply in_or_app; auto). destruct (Z_lt_le_dec (ca d) (c + 24 + size)) as [Q|Q]; auto. exfalso. apply (proj1 (chunk_mapped d Dl)). apply Fre. specialize (Hq d D). lia. }
  assert (NH : forall b d, In b (blocks L) -> In d L -> forall a, ba b <= a < ba b + bsz b -> a <> ca d).
  { intros b d B D a A ->. apply (header_not_block L 1 d b (ca d) P D B ltac:(lia) A). }
  assert (BM : forall b a, In b (blocks L) -> ba b <= a < ba b + bsz b -> (exists k, a = 8 * k) -> hm s' a = hm s a).
  { intros b a B A Ka. apply Fr; [apply (blk_mapped _ _ _ HI b); auto|]. intros d D. apply (NH b d B D a A). }
  assert (OM : forall a, hm s a <> None -> ~ inside L a -> hm s' a = hm s a).
  { intros a A NI. apply Fr; auto. intros d D ->. apply NI. exists d. split; auto. destruct (placed_ge _ _ _ P D). lia. }
  assert (TM : forall b i, In b (blocks L) -> 0 <= i <= zlen (bofs b) + 1 -> hm s (btag b + 8 * i) <> None).
  { intros b i B I. pose proof (ho_tab _ _ _ _ OK b B) as T. clear - T I. assert (I' : 0 <= i < zlen (table b)) by (rewrite table_len; lia). clear I. revert T I'. generalize (table b) as ws. intro ws. generalize (btag b) as a. revert i.
    induction ws as [|w ws IH]; intros i a T I; [rewrite zlen_nil in I; lia|]. rewrite zlen_cons in I. cbn [words] in T. destruct T as [T1 T2]. destruct (Z.eq_dec i 0) as [->|]; [replace (a + 8 * 0) with a by lia; congruence|].
    replace (a + 8 * i) with (a + 8 + 8 * (i - 1)) by lia. apply IH; auto. lia. }
  assert (LKM : forall x, free ls x -> hm s' (x + 24) = hm s (x + 24)).
  { intros x X. destruct (free_blk _ _ _ HI x X) as (b & B1 & B2 & _). destruct (blk_al _ _ _ HI b B1) as ((j & J) & _ & Sz). apply (BM b); auto; [lia|exists (j + 3); lia]. }
  assert (FLD : forall b o, In b (blocks L) -> In o (bofs b) -> val (hm s') (ptr b + o) = val (hm s) (ptr b + o)).
  { intros b o B O. pose proof (fld_loc _ _ _ _ OK b o B O). destruct (blk_al _ _ _ HI b B) as ((j & J) & _ & _). destruct (wf_ofs _ _ (ho_wf _ _ _ _ OK b B) o O) as (_ & _ & (i & I)). unfold val. rewrite (BM b); auto; [lia|exists (j + 1 + i); unfold ptr; lia]. }
  constructor.
  - constructor; auto.
    + apply placed_insert; cbn [ca ce cb n newchunk]; auto; [rewrite <- EL; exact P|lia|exists ck; auto|]. cbn [tiles freeb ba bsz]. split; auto. split; [exists k; auto|lia].
    + intros a A Ka. apply IN in A. destruct A as [A|A]; [apply Dm; apply (ho_map _ _ _ _ OK); auto|apply Mp; auto; lia].
    + intros b B. apply BL in B. destruct B as [B| ->].
      * pose proof (ho_wf _ _ _ _ OK b B) as [W1 W2 W3 W4]. constructor; auto. destruct W4 as [W4|W4]; auto. left. intros i I Q. apply IN in Q. destruct Q as [Q|Q]; [apply (W4 i I Q)|]. apply (TM b i B I). apply Fre. lia.
      * constructor; cbn [btag bofs freeb ba bsz]; [|constructor|intros o []|].
        -- replace (c + 24 + 8) with (2 * (8 * ck + 16)) by lia. rewrite Z.odd_mul. reflexivity.
        -- right. unfold ptr. cbn [ba freeb]. rewrite zlen_nil. split; [lia|]. split; [lia|]. intros o [].
    + intros b B. apply BL in B. destruct B as [B| ->].
      * apply (words_frame (hm s)); [|apply (ho_tab _ _ _ _ OK b B)]. rewrite table_len. intros i I. destruct (wf_tab _ _ (ho_wf _ _ _ _ OK b B)) as [W4|(W4 & W5 & _)]; [apply OM; [apply TM; auto; lia|apply W4; lia]|].
        apply Fr; [apply TM; auto; lia|]. intros d D. apply (NH b d B D). unfold ptr in *. lia.
      * unfold table. cbn [btag bofs freeb bsz app]. rewrite zlen_nil. cbn [words] in *. replace (c + 24 + 8) with (c + 32) in * by lia. tauto.
    + intros b B. replace (isin (ptr b) []) with false by reflexivity. rewrite Z.add_0_r. apply BL in B. destruct B as [B| ->].
      * destruct (blk_al _ _ _ HI b B) as (Al & _ & Sz). rewrite (BM b) by (auto; lia). pose proof (ho_head _ _ _ _ OK b B) as Q. replace (isin (ptr b) []) with false in Q by reflexivity. rewrite Z.add_0_r in Q. auto.
      * cbn [words btag freeb ba] in *. replace (c + 24 + 8) with (c + 32) by lia. tauto.
    + intros b o B O. apply BL in B. destruct B as [B| ->]; [|destruct O]. rewrite FLD by auto. destruct (ho_fld _ _ _ _ OK b o B O) as [|Q]; auto. right. apply in_map_iff in Q. destruct Q as (x & <- & X). apply in_map. apply BL. auto.
  - unfold onbig. constructor; rewrite ?Efl; auto.
    + intros i I. replace (i =? 9) with false by lia. apply (linked_frame (hm s)); auto. intros x X. apply LKM. exists i. split; auto. lia.
    + change (9 =? 9) with true. cbv iota. cbn [linked]. rewrite Ebg. split; auto. split; [lia|]. exists (big s). split; [cbn [words] in W; replace (c + 24 + 24) with (c + 24 + 8 + 8 + 8) by lia; tauto|]. apply (linked_frame (hm s)); auto. intros x X. apply LKM. exists 9. split; auto. lia.
  - intros i a I A. unfold onbig in A. assert (Q : In a (ls i) \/ (i = 9 /\ a = c + 24)) by (destruct (i =? 9) eqn:E; [replace i with 9 in * by lia; destruct A; auto|auto]). destruct Q as [Q|(-> & ->)].
    + destruct (hi_fr _ _ _ HI i a I Q) as (b & B1 & B2). exists b. split; auto. apply BL. auto.
    + exists (freeb (c + 24) size). cbn [ba btag bofs freeb]. split; [apply BL; auto|]. conjs.
  - assert (NF : forall i, 1 <= i <= 9 -> ~ In (c + 24) (ls i)).
    { intros i I Q. destruct (hi_fr _ _ _ HI i _ I Q) as (b & B1 & B2 & _). destruct (blk_al _ _ _ HI b B1) as (Al & _ & Sz). apply (blk_mapped _ _ _ HI b (c + 24)); auto; [lia|exists (2 * ck + 3); lia|]. apply Fre. lia. }
    intros i I. unfold onbig. destruct (i =? 9) eqn:E; [|apply (hi_nd _ _ _ HI); auto]. constructor; [apply NF; lia|apply (hi_nd _ _ _ HI); lia].
  - assert (NF : forall i, 1 <= i <= 9 -> ~ In (c + 24) (ls i)).
    { intros i I Q. destruct (hi_fr _ _ _ HI i _ I Q) as (b & B1 & B2 & _). destruct (blk_al _ _ _ HI b B1) as (Al & _ & Sz). apply (blk_mapped _ _ _ HI b (c + 24)); auto; [lia|exists (2 * ck + 3); lia|]. apply Fre. lia. }
    assert (Q : forall i a, In a (onbig (c + 24) i) -> In a (ls i) \/ (i = 9 /\ a = c + 24)) by (intros i a A; unfold onbig in A; destruct (i =? 9) eqn:E; [replace i with 9 in * by lia; destruct A; auto|auto]).
    intros i j a I J A B. destruct (Q i a A) as [A1|[A1 A2]], (Q j a B) as [B1|[B1 B2]]; try subst a; try congruence; [apply (hi_dj _ _ _ HI i j a); auto|exfalso; apply (NF i I A1)|exfalso; apply (NF j J B1)].
  - intros b o B O Nz. apply BL in B. destruct B as [B| ->]; [|destruct O]. rewrite FLD in * by auto. pose proof (hi_live _ _ _ HI b o B O Nz) as Lv. intros (i & I & A). apply Lv. exists i. split; auto.
    unfold onbig in A. destruct (i =? 9) eqn:E; auto. replace i with 9 in * by lia. destruct A as [A|A]; auto. exfalso. destruct (ho_fld _ _ _ _ OK b o B O) as [|Q]; auto. apply in_map_iff in Q. destruct Q as (x & Ex & X). destruct (blk_al _ _ _ HI x X) as (Al & _ & Sz).
    apply (blk_mapped _ _ _ HI x (c + 24) X); [change (ptr x) with (ba x + 8) in Ex; lia|exists (2 * ck + 3); lia|]. apply Fre. lia.
  - intros b B. apply BL in B. destruct B as [B| ->]; [pose proof (hi_rng _ _ _ HI b B); lia|]. unfold ptr. cbn [freeb ba bsz]. lia.
  - destruct p; discriminate.
  - rewrite Eexp. apply (hi_exp _ _ _ HI).
  - destruct (hi_size _ _ _ HI) as (i & Hi). exists (i + k). lia.
Qed.
End EXT.

(** What extending the heap does: nothing (the operating system refused), or one more chunk with one free block. *)
Definition same_heap (s1 s2 : hst) : Prop := hm s2 = hm s1 /\ fl s2 = fl s1 /\ big s2 = big s1 /\ heap s2 = heap s1 /\ hmin s2 = hmin s1 /\ hmax s2 = hmax s1 /\ hsize s2 = hsize s1 /\ allocd s2 = allocd s1.
Lemma ExtendHeap_spec : forall s L ls os ft k, hinv s L ls -> honest os -> 1 <= k ->
  exists N s' L' ls', (forall fuel, (N <= fuel)%nat -> ExtendHeap fuel os ft (32 * k) s = Ok s') /\ hinv s' L' ls' /\
    ((L' = L /\ ls' = ls /\ same_heap s s' /\ (exists sz, 32 * k <= sz /\ os (tick s) (hm s) (sz + 24) = None)) \/
     (exists c size, 32 * k <= size /\ ls' = onbig ls (c + 24) /\ (forall x, In x (blocks L') <-> In x (blocks L) \/ x = freeb (c + 24) size) /\ (forall b, In b (blocks L) -> ba b <> c + 24) /\
        (forall a, hm s a <> None -> (forall d, In d L -> a <> ca d) -> hm s' a = hm s a) /\ (forall a, hm s a <> None -> ~ inside L a -> ~ inside L' a))).
Proof.
  intros s L ls os ft k HI Ho K. pose proof (ho_placed _ _ _ _ (hi_ok _ _ _ HI)) as P. destruct (hi_exp _ _ _ HI) as (ek & Ek1 & Ek2).
  set (size := if hexp s <? 32 * k then 32 * k else hexp s).
  assert (SZ : exists i, 1 <= i /\ size = 32 * i) by (unfold size; destruct (hexp s <? 32 * k); [exists k; auto|exists ek; auto]).
  assert (SK : 32 * k <= size) by (unfold size; destruct (hexp s <? 32 * k) eqn:E; lia).
  assert (PRE : forall fuel, ExtendHeap fuel os ft (32 * k) s = (let* (chnk, s) := NewChunk os size s in
    if negb (chnk =? 0) then
      if chnk <? heap s then
        let* m := put (hm s) chnk (heap s) in
        Ok {| hm := m; fl := fl s; big := big s; allocd := allocd s; heap := chnk; hmin := hmin s; hmax := hmax s; hsize := hsize s; hexp := hexp s; tick := tick s |}
      else
        let* next := get (hm s) (heap s) in
        let* (j, next) := find_chunk fuel (hm s) (heap s) next chnk in
        let* m := put (hm s) chnk next in
        let* m := put m j chnk in
        Ok (setmem m s)
    else if negb ft then
      Ok {| hm := hm s; fl := fl s; big := big s; allocd := allocd s; heap := heap s; hmin := hmin s; hmax := hmax s; hsize := hsize s; hexp := 32; tick := tick s |}
    else Ok s)).
  { intro fuel. unfold ExtendHeap. replace (32 * k mod 32) with 0 by (rewrite Z.mul_comm, Z.mod_mul; lia). reflexivity. }
  destruct (os (tick s) (hm s) (size + 24)) as [[c junk]|] eqn:Eos.
  - destruct (Ho _ _ _ _ _ Eos) as (C0 & (ck & CK) & Fre). destruct SZ as (sk & S1 & S2).
    set (m0 := mapped (hm s) c (size + 24) junk).
    assert (M0 : forall a, ~ (c <= a < c + (size + 24)) -> m0 a = hm s a).
    { intros a A. unfold m0, mapped. destruct ((c <=? a) && (a <? c + (size + 24)) && (a mod 8 =? 0)) eqn:E; auto. apply andb_true_iff in E. destruct E as [E _]. apply andb_true_iff in E. lia. }
    assert (M1 : forall a, c <= a < c + (size + 24) -> (exists k, a = 8 * k) -> m0 a <> None).
    { intros a A (i & I). unfold m0, mapped. replace (c <=? a) with true by lia. replace (a <? c + (size + 24)) with true by lia. replace (a mod 8) with 0 by (subst a; rewrite Z.mul_comm, Z.mod_mul; lia). cbn. discriminate. }
    assert (M2 : forall a, hm s a <> None -> m0 a = hm s a) by (intros a A; apply M0; intro Q; apply A; apply Fre; auto).
    assert (D8 : m0 (c + 8) <> None) by (apply M1; [lia|exists (2 * ck + 1); lia]). assert (D24 : m0 (c + 24) <> None) by (apply M1; [lia|exists (2 * ck + 3); lia]). assert (D32 : m0 (c + 24 + 8) <> None) by (apply M1; [lia|exists (2 * ck + 4); lia]).
    assert (D40 : m0 (c + 24 + 16) <> None) by (apply M1; [lia|exists (2 * ck + 5); lia]). assert (D48 : m0 (c + 24 + 24) <> None) by (apply M1; [lia|exists (2 * ck + 6); lia]). assert (Dc : m0 c <> None) by (apply M1; [lia|exists (2 * ck); lia]).
    set (m5 := upd (upd (upd (upd (upd m0 (c + 8) (c + 24 + size)) (c + 24) (c + 24 + 8)) (c + 24 + 8) size) (c + 24 + 16) (-8)) (c + 24 + 24) (big s)).
    set (s5 := {| hm := m5; fl := fl s; big := c + 24; allocd := allocd s; heap := heap s; hmin := (if c + 24 + 8 <? hmin s then c + 24 + 8 else hmin s); hmax := (if hmax s <? c + 24 + size then c + 24 + size else hmax s); hsize := hsize s + size; hexp := hexp s; tick := S (tick s) |}).
    assert (NC : NewChunk os size s = Ok (c, s5)).
    { unfold NewChunk. rewrite Eos. fold m0. rewrite put_chain by auto. rewrite bind_ok. rewrite put_chain by (repeat apply upd_dom; auto). rewrite bind_ok. rewrite put_chain by (repeat apply upd_dom; auto). rewrite bind_ok. rewrite put_chain by (repeat apply upd_dom; auto). rewrite bind_ok. rewrite put_chain by (repeat apply upd_dom; auto). rewrite bind_ok. reflexivity. }
    assert (D5 : forall a, m0 a <> None -> m5 a <> None) by (intros a A; repeat apply upd_dom; auto).
    assert (F5 : forall a, hm s a <> None -> m5 a = hm s a).
    { intros a A. assert (~ (c <= a < c + (size + 24))) by (intro Q; apply A; apply Fre; auto). unfold m5. rewrite !upd_other by lia. apply M2; auto. }
    assert (W5 : words m5 (c + 24) [c + 32; size; -8; big s] /\ m5 (c + 8) = Some (c + 24 + size)).
    { cbn [words]. replace (c + 24 + 8 + 8) with (c + 24 + 16) by lia. replace (c + 24 + 16 + 8) with (c + 24 + 24) by lia. unfold m5. replace (c + 32) with (c + 24 + 8) by lia. split; [split; [|split; [|split; [|split]]]|]; auto.
      - rewrite !upd_other by lia. apply upd_same.
      - rewrite !upd_other by lia. apply upd_same.
      - rewrite upd_other by lia. apply upd_same.
      - apply upd_same.
      - rewrite !upd_other by lia. apply upd_same. }
    destruct W5 as [W5 W8].
    assert (OUTL : forall L' p q, L = p ++ q -> L' = p ++ newchunk c size :: q -> (forall a, hm s a <> None -> ~ inside L a -> ~ inside L' a) /\ (forall x, In x (blocks L') <-> In x (blocks L) \/ x = freeb (c + 24) size)).
    { intros L' p q EL EL'. split.
      - intros a A N (d & D & Q). apply N. rewrite EL' in D. rewrite EL. apply in_app_or in D. destruct D as [D|[<-|D]]; [exists d; split; auto; apply in_or_app; auto| |exists d; split; auto; apply in_or_app; auto]. exfalso. apply A. apply Fre. cbn [newchunk ca ce] in Q. lia.
      - intro x. rewrite EL, EL'. unfold blocks. rewrite !flat_map_app. cbn [flat_map newchunk cb]. rewrite !in_app_iff. cbn [In]. intuition. }
    assert (NF : forall b, In b (blocks L) -> ba b <> c + 24).
    { intros b B1 B2. destruct (blk_al _ _ _ HI b B1) as (Al & _ & Sz). apply (blk_mapped _ _ _ HI b (c + 24)); auto; [lia|exists (2 * ck + 3); lia|]. apply Fre. lia. }
    pose proof (ho_chain _ _ _ _ (hi_ok _ _ _ HI)) as Ch.
    assert (HDR : forall d a, In d L -> ca d <= a < ca d + 24 -> (exists k, a = 8 * k) -> hm s a <> None).
    { intros d a D A Ka. apply (ho_map _ _ _ _ (hi_ok _ _ _ HI)); auto. exists d. split; auto. destruct (placed_ge _ _ _ P D). lia. }
    destruct L as [|c0 L0] eqn:EL0; [exfalso; apply (hi_ne _ _ _ HI); auto|]. cbn [chained] in Ch. destruct Ch as (Eh & Ch1 & nx & Ch2 & Ch3).
    assert (P0 : placed 1 (c0 :: L0)) by exact P. destruct (placed_ge _ _ _ P0 (or_introl eq_refl)) as (G1 & G2 & (gk & G3) & G4 & _).
    assert (C5 : m5 c <> None) by auto.
    destruct (c <? heap s) eqn:Elt.
    + (* in front *)
      set (m6 := upd m5 c (heap s)). set (s6 := {| hm := m6; fl := fl s5; big := big s5; allocd := allocd s5; heap := c; hmin := hmin s5; hmax := hmax s5; hsize := hsize s5; hexp := hexp s5; tick := tick s5 |}).
      exists O, s6, (newchunk c size :: c0 :: L0), (onbig ls (c + 24)).
      assert (F6 : forall a, hm s a <> None -> m6 a = hm s a) by (intros a A; unfold m6; rewrite upd_other; [auto|intros ->; apply A; apply Fre; lia]).
      split; [|split].
      * intros fuel _. rewrite PRE, NC, bind_ok. cbv iota beta. replace (c =? 0) with false by lia. cbn [negb]. change (heap s5) with (heap s). rewrite Elt. change (hm s5) with m5. rewrite put_chain by auto. rewrite bind_ok. reflexivity.
      * apply (insert_hinv s (c0 :: L0) ls HI s6 [] (c0 :: L0) c size); auto; try (exists ck; auto; fail); try (exists sk; auto; fail).
        -- intros d [].
        -- intros d [<-|D]; [lia|]. cbn [placed] in P0. destruct P0 as (_ & _ & _ & T0 & P0). pose proof (tiles_le _ _ _ T0). destruct (placed_ge _ _ _ P0 D). lia.
        -- cbn [app chained newchunk ca ce s6 heap hm]. split; auto. split; [unfold m6; rewrite upd_other by lia; auto|]. exists (heap s). split; [apply upd_same|].
           split; auto. rewrite !F6; [split; auto; exists nx; split; auto|congruence|congruence].
           apply (chained_frame2 (hm s) m6 L0 (ce c0)); auto; [cbn [placed] in P0; tauto|]. intros d a D A Ka. apply F6. apply (HDR d); auto. right; auto.
        -- intros a A. rewrite F6 by auto. auto.
        -- apply (words_frame m5); auto. rewrite !zlen_cons, zlen_nil. intros i I. unfold m6. apply upd_other. lia.
        -- intros a A Ka. unfold m6. apply upd_dom. auto.
        -- cbn [s6 hmin s5]. destruct (c + 24 + 8 <? hmin s) eqn:E; lia.
        -- cbn [s6 hmin s5]. destruct (c + 24 + 8 <? hmin s) eqn:E; lia.
        -- cbn [s6 hmax s5]. destruct (hmax s <? c + 24 + size) eqn:E; lia.
        -- cbn [s6 hmax s5]. destruct (hmax s <? c + 24 + size) eqn:E; lia.
      * right. exists c, size. destruct (OUTL (newchunk c size :: c0 :: L0) [] (c0 :: L0) eq_refl eq_refl) as [O1 O2]. split; auto. split; auto.
    + (* further back *)
      assert (Nh : c <> ca c0) by (intro Q; apply (HDR c0 (ca c0) (or_introl eq_refl)); [lia|exists (2 * gk); lia|apply Fre; lia]).
      assert (P1 : placed (ce c0) L0) by (cbn [placed] in P0; tauto).
      assert (Ch5 : chained m5 nx L0).
      { apply (chained_frame2 (hm s) m5 L0 (ce c0)); auto. intros d a D A Ka. apply F5. apply (HDR d); auto. right; auto. }
      destruct (find_chunk_spec m5 c L0 (ca c0) nx (ce c0) Ch5 P1) as (N & p & q & nx' & EL & Lp & Lq & Cq & FC).
      set (j := last (map ca p) (ca c0)).
      assert (Ij : exists d, In d (c0 :: p) /\ ca d = j).
      { unfold j. destruct p as [|y p]; [exists c0; split; [left|]; auto|]. assert (I : In (last (map ca (y :: p)) (ca c0)) (map ca (y :: p))) by (apply last_in; discriminate). apply in_map_iff in I. destruct I as (d & E & D). exists d. split; auto. right; auto. }
      destruct Ij as (dj & Dj1 & Dj2).
      assert (DjL : In dj (c0 :: L0)) by (destruct Dj1 as [<-|Dj1]; [left; auto|right; rewrite EL; apply in_or_app; auto]).
      assert (Mj : hm s j <> None) by (rewrite <- Dj2; destruct (placed_ge _ _ _ P0 DjL) as (_ & _ & (i & Hi) & _); apply (HDR dj); auto; [lia|exists (2 * i); lia]).
      assert (Njc : j <> c) by (intros E; apply Mj; rewrite E; apply Fre; lia).
      set (m6 := upd (upd m5 c nx') j c). set (s6 := setmem m6 s5).
      assert (F6 : forall a, hm s a <> None -> a <> j -> m6 a = hm s a) by (intros a A B; unfold m6; rewrite !upd_other; auto; intros ->; apply A; apply Fre; lia).
      exists N, s6, ((c0 :: p) ++ newchunk c size :: q), (onbig ls (c + 24)).
      assert (EL' : c0 :: L0 = (c0 :: p) ++ q) by (cbn [app]; congruence).
      split; [|split].
      * intros fuel Hf. rewrite PRE, NC, bind_ok. cbv iota beta. replace (c =? 0) with false by lia. cbn [negb]. change (heap s5) with (heap s). rewrite Elt. change (hm s5) with m5. rewrite Eh. rewrite (get_ok m5 (ca c0) nx) by (rewrite F5 by congruence; auto). rewrite bind_ok. rewrite FC by auto. rewrite bind_ok. cbv iota beta. fold j.
        rewrite put_chain by auto. rewrite bind_ok. rewrite put_chain by (apply upd_dom; apply D5; rewrite M2 by auto; auto). rewrite bind_ok. reflexivity.
      * apply (insert_hinv s (c0 :: L0) ls HI s6 (c0 :: p) q c size); auto; try (exists ck; auto; fail); try (exists sk; auto; fail).
        -- intros d [<-|D]; [lia|auto].
        -- cbn [s6 setmem hm heap s5]. rewrite Eh. apply (chained_insert (hm s) m6 (newchunk c size) q nx' (c0 :: p)); cbn [newchunk ca ce].
           ++ rewrite <- EL'. cbn [chained]. split; auto. split; auto. exists nx; auto.
           ++ discriminate.
           ++ pose proof (placed_ca_nodup _ _ P0) as ND. rewrite EL', map_app in ND. apply (nodup_app_l _ _ ND).
           ++ replace (last (map ca (c0 :: p)) 0) with j; [apply upd_same|]. unfold j. cbn [map]. destruct p as [|y p]; [reflexivity|]. cbn [map]. change (last (ca c0 :: ca y :: map ca p) 0) with (last (ca y :: map ca p) 0). apply last_any. discriminate.
           ++ unfold m6. rewrite upd_other by auto. apply upd_same.
           ++ unfold m6. rewrite !upd_other; auto; [lia|]. intro E. apply Mj. rewrite <- E. apply Fre. lia.
           ++ apply (chained_frame m5); auto. intros d a D A. unfold m6. assert (Dl : In d (c0 :: L0)) by (rewrite EL'; apply in_or_app; auto). rewrite !upd_other; auto.
              ** intros ->. specialize (Lq d D). assert (c <> ca d). { intro E. destruct (placed_ge _ _ _ P0 Dl) as (_ & _ & (i & Hi) & _). apply (HDR d (ca d) Dl); [lia|exists (2 * i); lia|]. rewrite <- E. apply Fre. lia. } lia.
              ** intro E. destruct (placed_ge _ _ _ P0 Dl) as (_ & Q2 & _). destruct (placed_ge _ _ _ P0 DjL) as (_ & Q3 & _). destruct (placed_disj _ _ _ _ P0 Dl DjL) as [Q|[Q|Q]]; [|lia|lia].
                 subst dj. pose proof (placed_ca_nodup _ _ P0) as ND. rewrite EL', map_app in ND. clear - ND D Dj1. induction (c0 :: p) as [|x l IH]; [destruct Dj1|]. cbn [map app] in ND. inversion ND; subst. destruct Dj1 as [->|I]; [|auto]. apply H1. apply in_or_app. right. apply in_map. auto.
           ++ intros d D. assert (Dl : In d (c0 :: L0)) by (rewrite EL'; apply in_or_app; auto). destruct (placed_ge _ _ _ P0 Dl) as (_ & Q2 & (i & Hi) & _). apply F6; [apply (HDR d); auto; [lia|exists (2 * i + 1); lia]|]. rewrite <- Dj2. destruct (placed_ge _ _ _ P0 DjL) as (_ & Q3 & (i2 & Hi2) & _). lia.
           ++ intros d D Nj. assert (Dl : In d (c0 :: L0)) by (rewrite EL'; apply in_or_app; auto). destruct (placed_ge _ _ _ P0 Dl) as (_ & Q2 & (i & Hi) & _). apply F6; [apply (HDR d); auto; [lia|exists (2 * i); lia]|]. intro E. apply Nj. rewrite E. unfold j. cbn [map]. destruct p as [|y p]; [reflexivity|]. cbn [map]. change (last (ca c0 :: ca y :: map ca p) 0) with (last (ca y :: map ca p) 0). apply last_any. discriminate.
        -- intros a A Q. apply F6; auto. rewrite <- Dj2. apply Q. auto.
        -- intros a A. cbn [s6 setmem hm]. unfold m6. apply upd_dom, upd_dom, D5. rewrite M2; auto.
        -- cbn [s6 setmem hm]. apply (words_frame m5); auto. rewrite !zlen_cons, zlen_nil. intros i I. unfold m6. rewrite !upd_other; auto; [lia|]. intro E. apply Mj. rewrite <- E. apply Fre. lia.
        -- intros a A Ka. cbn [s6 setmem hm]. unfold m6. apply upd_dom, upd_dom. auto.
        -- cbn [s6 setmem hmin s5]. destruct (c + 24 + 8 <? hmin s) eqn:E; lia.
        -- cbn [s6 setmem hmin s5]. destruct (c + 24 + 8 <? hmin s) eqn:E; lia.
        -- cbn [s6 setmem hmax s5]. destruct (hmax s <? c + 24 + size) eqn:E; lia.
        -- cbn [s6 setmem hmax s5]. destruct (hmax s <? c + 24 + size) eqn:E; lia.
      * right. exists c, size. destruct (OUTL _ (c0 :: p) q EL' eq_refl) as [O1 O2]. split; auto. split; auto. split; auto. split; auto. split; auto. intros a A Q. apply F6; auto. rewrite <- Dj2. apply Q. auto.
  - assert (NC : NewChunk os size s = Ok (0, {| hm := hm s; fl := fl s; big := big s; allocd := allocd s; heap := heap s; hmin := hmin s; hmax := hmax s; hsize := hsize s; hexp := hexp s; tick := S (tick s) |})) by (unfold NewChunk; rewrite Eos; reflexivity).
    destruct ft.
    + eexists O, _, L, ls. split; [intros fuel _; rewrite PRE, NC, bind_ok; cbv iota beta; cbn [Z.eqb negb]; reflexivity|]. split.
      * destruct HI as [H1 H2 H3 H4 H5 H6 H7 H8 H9 H10]. constructor; auto.
      * left. split; auto. split; auto. split; [repeat split|]. exists size. auto.
    + eexists O, _, L, ls. split; [intros fuel _; rewrite PRE, NC, bind_ok; cbv iota beta; cbn [Z.eqb negb]; reflexivity|]. split.
      * destruct HI as [H1 H2 H3 H4 H5 H6 H7 H8 H9 H10]. constructor; auto. exists 1. cbn [hexp]. lia.
      * left. split; auto. split; auto. split; [repeat split|]. exists size. auto.
Qed.
