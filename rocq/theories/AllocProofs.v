From Verif Require Import Base ArrZ HeapModel HeapSpec MarkProofs LayProofs SortProofs ScanProofs.

(** * Clearing *)
Lemma clear_loop_spec : forall n (m : mem) i fuel, (n < fuel)%nat -> (exists k, i = 8 * k) -> (forall a, i <= a < i + 32 * Z.of_nat n -> (exists k, a = 8 * k) -> m a <> None) ->
  exists m' : mem, clear_loop fuel m i (i + 32 * Z.of_nat n) = Ok m' /\ (forall a, i <= a < i + 32 * Z.of_nat n -> (exists k, a = 8 * k) -> m' a = Some 0) /\
    (forall a, a < i \/ i + 32 * Z.of_nat n <= a -> m' a = m a) /\ (forall a, m a <> None -> m' a <> None).
Proof.
  induction n as [|n IH]; intros m i fuel F (k & K) D; (destruct fuel as [|fuel]; [lia|]); cbn [clear_loop].
  - replace (i <? i + 32 * Z.of_nat 0) with false by lia. exists m. split; auto. split; [intros; lia|]. auto.
  - replace (i <? i + 32 * Z.of_nat (S n)) with true by lia.
    assert (D0 : m i <> None) by (apply D; [lia|exists k; lia]). assert (D1 : m (i + 8) <> None) by (apply D; [lia|exists (k + 1); lia]). assert (D2 : m (i + 16) <> None) by (apply D; [lia|exists (k + 2); lia]). assert (D3 : m (i + 24) <> None) by (apply D; [lia|exists (k + 3); lia]).
    rewrite put_chain by auto. rewrite bind_ok. rewrite put_chain by (repeat apply upd_dom; auto). rewrite bind_ok. rewrite put_chain by (repeat apply upd_dom; auto). rewrite bind_ok. rewrite put_chain by (repeat apply upd_dom; auto). rewrite bind_ok.
    set (m4 := upd (upd (upd (upd m i 0) (i + 8) 0) (i + 16) 0) (i + 24) 0).
    destruct (IH m4 (i + 32) fuel) as (m' & A & B & C & E); [lia|exists (k + 4); lia| |].
    { intros a Ha Ka. repeat apply upd_dom. apply D; auto. lia. }
    exists m'. replace (i + 32 + 32 * Z.of_nat n) with (i + 32 * Z.of_nat (S n)) in * by lia. split; auto. split; [|split].
    + intros a Ha (j & J). destruct (Z_lt_le_dec a (i + 32)) as [Q|Q]; [|apply B; [lia|exists j; auto]]. rewrite C by lia. unfold m4.
      assert (X : a = i \/ a = i + 8 \/ a = i + 16 \/ a = i + 24) by lia. destruct X as [->|[->|[->| ->]]].
      * rewrite !upd_other by lia. apply upd_same.
      * rewrite !upd_other by lia. apply upd_same.
      * rewrite upd_other by lia. apply upd_same.
      * apply upd_same.
    + intros a Ha. rewrite C by lia. unfold m4. rewrite !upd_other by lia. reflexivity.
    + intros a Ha. apply E. repeat apply upd_dom. auto.
Qed.
Lemma finish_spec : forall tag k adr (m : mem) fl bg s, 1 <= k -> (exists j, adr = 8 * j) -> (forall a, adr <= a < adr + 32 * k -> (exists j, a = 8 * j) -> m a <> None) ->
  exists N (m' : mem), (forall fuel, (N <= fuel)%nat -> finish fuel tag (32 * k) adr m fl bg s =
      Ok (adr + 8, {| hm := m'; fl := fl; big := bg; allocd := allocd s + 32 * k; heap := heap s; hmin := hmin s; hmax := hmax s; hsize := hsize s; hexp := hexp s; tick := tick s |})) /\
    m' adr = Some tag /\ (forall a, adr < a < adr + 32 * k -> (exists j, a = 8 * j) -> m' a = Some 0) /\
    (forall a, a < adr \/ adr + 32 * k <= a -> m' a = m a) /\ (forall a, m a <> None -> m' a <> None).
Proof.
  intros tag k adr m fl bg s K (j & J) D.
  destruct (clear_loop_spec (Z.to_nat (k - 1)) m (adr + 32) (S (Z.to_nat k))) as (m1 & A & B & C & E); [lia|exists (j + 4); lia| |].
  { intros a Ha Ka. apply D; auto. lia. }
  replace (adr + 32 + 32 * Z.of_nat (Z.to_nat (k - 1))) with (adr + 32 * k) in * by lia.
  assert (DD : forall d, 0 <= d <= 3 -> m1 (adr + 8 * d) <> None) by (intros d Hd; apply E; apply D; [lia|exists (j + d); lia]).
  pose proof (DD 0 ltac:(lia)) as D0. pose proof (DD 1 ltac:(lia)) as D1. pose proof (DD 2 ltac:(lia)) as D2. pose proof (DD 3 ltac:(lia)) as D3.
  replace (adr + 8 * 0) with adr in D0 by lia. replace (adr + 8 * 1) with (adr + 8) in D1 by lia. replace (adr + 8 * 2) with (adr + 16) in D2 by lia. replace (adr + 8 * 3) with (adr + 24) in D3 by lia.
  set (m2 := upd (upd (upd (upd m1 (adr + 24) 0) adr tag) (adr + 8) 0) (adr + 16) 0).
  exists (S (Z.to_nat k)), m2. split; [|split; [|split; [|split]]].
  - intros fuel F. destruct (clear_loop_spec (Z.to_nat (k - 1)) m (adr + 32) fuel) as (m1' & A' & B' & C' & _); [lia|exists (j + 4); lia| |].
    { intros a Ha Ka. apply D; auto. lia. }
    assert (FU : forall f f' mm ii ee r, (f <= f')%nat -> clear_loop f mm ii ee = Ok r -> clear_loop f' mm ii ee = Ok r).
    { clear. induction f as [|f IH]; intros f' mm ii ee r Hf H; [discriminate|]. destruct f' as [|f']; [lia|]. cbn [clear_loop] in *. destruct (ii <? ee); auto.
      destruct (put mm ii 0); auto; cbn [bind] in *. destruct (put _ _ _); auto; cbn [bind] in *. destruct (put _ _ _); auto; cbn [bind] in *. destruct (put _ _ _); auto; cbn [bind] in *. apply IH; auto. lia. }
    unfold finish. rewrite (FU _ _ _ _ _ _ F A), bind_ok. rewrite put_chain by auto. rewrite bind_ok. rewrite put_chain by (repeat apply upd_dom; auto). rewrite bind_ok. rewrite put_chain by (repeat apply upd_dom; auto). rewrite bind_ok. rewrite put_chain by (repeat apply upd_dom; auto). rewrite bind_ok. reflexivity.
  - unfold m2. rewrite !upd_other by lia. apply upd_same.
  - intros a Ha (i & I). unfold m2. destruct (Z_lt_le_dec a (adr + 32)) as [Q|Q].
    + assert (X : a = adr + 8 \/ a = adr + 16 \/ a = adr + 24) by lia. destruct X as [->|[->| ->]].
      * rewrite upd_other by lia. apply upd_same.
      * apply upd_same.
      * rewrite !upd_other by lia. apply upd_same.
    + rewrite !upd_other by lia. apply B; [lia|exists i; auto].
  - intros a Ha. unfold m2. rewrite !upd_other by lia. apply C. lia.
  - intros a Ha. repeat apply upd_dom. auto.
Qed.

(** * Lists *)
Lemma last_in : forall (p : list Z) d, p <> [] -> In (last p d) p.
Proof. intros p d H. destruct (exists_last H) as (q & z & ->). rewrite last_last. apply in_or_app. right. left. auto. Qed.
Lemma last_any : forall (p : list Z) d d', p <> [] -> last p d = last p d'.
Proof. intros p d d' H. destruct (exists_last H) as (q & z & ->). rewrite !last_last. auto. Qed.
Lemma linked_unlink : forall (m m' : mem) p h a r nx, linked m h (p ++ a :: r) -> p <> [] -> m (a + 24) = Some nx -> NoDup (p ++ a :: r) ->
  m' (last p 0 + 24) = Some nx -> (forall x, In x (p ++ r) -> x <> last p 0 -> m' (x + 24) = m (x + 24)) -> linked m' h (p ++ r).
Proof.
  intros m m'. induction p as [|x p IH]; intros h a r nx H NE Nx ND Up Fr; [congruence|]. cbn [app linked] in *. destruct H as (-> & X0 & n2 & N2 & H). inversion ND; subst. split; auto. split; auto.
  destruct p as [|y p].
  - cbn [app last] in *. cbn [linked] in H. destruct H as (-> & A0 & n3 & N3 & H). rewrite Nx in N3. inversion N3; subst n3. exists nx. split; auto. apply (linked_frame m); auto. intros z Z. apply Fr; [right; auto|].
    intros ->. apply H2. right. auto.
  - assert (El : last (x :: y :: p) 0 = last (y :: p) 0) by reflexivity. rewrite El in *. exists n2. split.
    + rewrite Fr; auto; [left; auto|]. intro Q. apply H2. rewrite Q. apply in_or_app. left. apply last_in. discriminate.
    + apply (IH n2 a r nx); auto; [discriminate|]. intros z Z. apply Fr. right. auto.
Qed.
Lemma linked_mid : forall m p h a r, linked m h (p ++ a :: r) -> exists nx, m (a + 24) = Some nx /\ linked m nx r.
Proof. intros m. induction p as [|x p IH]; intros h a r H; cbn [app linked] in H; destruct H as (_ & _ & nx & N & H); [exists nx; auto|eauto]. Qed.
Lemma find_list_spec : forall n fuel fl i, zlen fl = 10 -> ix fl 9 <> 0 -> 0 <= i <= 9 -> Z.of_nat n = 9 - i -> (n < fuel)%nat ->
  exists j, find_list fuel fl i = Ok (j, ix fl j) /\ i <= j <= 9 /\ ix fl j <> 0 /\ forall q, i <= q < j -> ix fl q = 0.
Proof.
  induction n as [|n IH]; intros fuel fl i Lf Sf Hi Hn Hf; (destruct fuel as [|fuel]; [lia|]); cbn [find_list]; rewrite getA_ix, bind_ok by lia.
  - replace i with 9 in * by lia. replace (ix fl 9 =? 0) with false by lia. exists 9. split; auto. split; [lia|]. split; auto. intros; lia.
  - destruct (ix fl i =? 0) eqn:E.
    + destruct (IH fuel fl (i + 1)) as (j & A & B & C & D); auto; try lia. exists j. split; auto. split; [lia|]. split; auto. intros q Q. destruct (Z.eq_dec q i) as [->|]; [lia|]. apply D. lia.
    + exists i. split; auto. split; [lia|]. split; [lia|]. intros; lia.
Qed.
Lemma search_big_spec : forall (m : mem) blksz l h prev, linked m h l -> (forall a, In a l -> exists t, m (a + 8) = Some t) ->
  exists N, (forall fuel, (N <= fuel)%nat -> search_big fuel m blksz prev h = Ok None) /\ (forall a t, In a l -> m (a + 8) = Some t -> t < blksz) \/
    exists p a r t, l = p ++ a :: r /\ m (a + 8) = Some t /\ blksz <= t /\ (forall fuel, (N <= fuel)%nat -> search_big fuel m blksz prev h = Ok (Some (last p prev, a, t))).
Proof.
  intros m blksz. induction l as [|a l IH]; intros h prev H S; cbn [linked] in H.
  - subst h. exists 1%nat. left. split; [|intros ? ? []]. intros fuel F. destruct fuel as [|fuel]; [lia|]. reflexivity.
  - destruct H as (-> & A0 & nx & N & H). destruct (S a (or_introl eq_refl)) as (t & T). destruct (blksz <=? t) eqn:E.
    + exists 1%nat. right. exists [], a, l, t. split; auto. split; auto. split; [lia|]. intros fuel F. destruct fuel as [|fuel]; [lia|]. cbn [search_big]. replace (a =? 0) with false by lia. rewrite (get_ok _ _ _ T), bind_ok, E. reflexivity.
    + destruct (IH nx a H) as (n & [(A & B)|(p & x & r & t' & A & B & C & D)]); [intros; apply S; right; auto| |]; exists (Datatypes.S n).
      * left. split.
        -- intros fuel F. destruct fuel as [|fuel]; [lia|]. cbn [search_big]. replace (a =? 0) with false by lia. rewrite (get_ok _ _ _ T), bind_ok, E, (get_ok _ _ _ N), bind_ok. apply A. lia.
        -- intros x t' [<-|X] Q; [|eauto]. rewrite T in Q. inversion Q; subst. lia.
      * right. exists (a :: p), x, r, t'. split; [cbn [app]; congruence|]. split; auto. split; auto. intros fuel F. destruct fuel as [|fuel]; [lia|]. cbn [search_big]. replace (a =? 0) with false by lia. rewrite (get_ok _ _ _ T), bind_ok, E, (get_ok _ _ _ N), bind_ok.
        rewrite D by lia. do 3 f_equal. f_equal. destruct p as [|z p]; [reflexivity|]. change (last (a :: z :: p) prev) with (last (z :: p) prev). apply last_any. discriminate.
Qed.

(** * Taking a block off the lists *)
Section ALLOC.
Variables (s : hst) (L : list chunk) (ls : Z -> list Z).
Hypothesis HI : hinv s L ls.
Let P := ho_placed _ _ _ _ (hi_ok _ _ _ HI).

Record taken (m1 : mem) (fl1 : list Z) (bg1 : Z) (ls1 : Z -> list Z) (b : blk) (rest : Z) : Prop := {
  tk_ls : lists m1 fl1 bg1 ls1;
  tk_in : forall i a, 1 <= i <= 9 -> In a (ls1 i) -> (In a (ls i) /\ a <> ba b) \/ (a = ba b /\ 0 < rest /\ (i < 9 -> rest = 32 * i));
  tk_nd : forall i, 1 <= i <= 9 -> NoDup (ls1 i);
  tk_dj : forall i j a, 1 <= i <= 9 -> 1 <= j <= 9 -> In a (ls1 i) -> In a (ls1 j) -> i = j;
  tk_fr : forall a, ~ (ba b <= a < ba b + bsz b) -> (forall x, free ls x -> a <> x + 24) -> m1 a = hm s a;
  tk_dom : forall a, hm s a <> None -> m1 a <> None;
  tk_w : 0 < rest -> words m1 (ba b) [ba b + 8; rest; -8]
}.
Definition ls2 (i d a : Z) (l : list Z) : Z -> list Z := fun j => if j =? i then l else if j =? d then a :: ls j else ls j.
Lemma ls2_ok : forall i d a p r, 1 <= i <= 9 -> 0 <= d <= 9 -> ls i = p ++ a :: r ->
  (forall j x, 1 <= j <= 9 -> In x (ls2 i d a (p ++ r) j) -> (In x (ls j) /\ x <> a) \/ (x = a /\ j = d /\ d <> i)) /\
  (forall j, 1 <= j <= 9 -> NoDup (ls2 i d a (p ++ r) j)) /\ (forall j q x, 1 <= j <= 9 -> 1 <= q <= 9 -> In x (ls2 i d a (p ++ r) j) -> In x (ls2 i d a (p ++ r) q) -> j = q).
Proof.
  intros i d a p r I D E. pose proof (hi_nd _ _ _ HI i I) as ND. rewrite E in ND. pose proof (NoDup_remove_1 _ _ _ ND) as N1. pose proof (NoDup_remove_2 _ _ _ ND) as N2.
  assert (Ia : In a (ls i)) by (rewrite E; apply in_or_app; right; left; auto).
  assert (A : forall j x, 1 <= j <= 9 -> In x (ls2 i d a (p ++ r) j) -> (In x (ls j) /\ x <> a) \/ (x = a /\ j = d /\ d <> i)).
  { intros j x J X. unfold ls2 in X. destruct (j =? i) eqn:Q.
    - replace j with i by lia. left. split; [rewrite E; apply in_app_or in X; apply in_or_app; cbn [In]; tauto|]. intros ->. auto.
    - destruct (j =? d) eqn:Q2.
      + destruct X as [<-|X]; [right; lia|]. left. split; auto. intros ->. pose proof (hi_dj _ _ _ HI i j a I J Ia X). lia.
      + left. split; auto. intros ->. pose proof (hi_dj _ _ _ HI i j a I J Ia X). lia. }
  split; auto. split.
  - intros j J. unfold ls2. destruct (j =? i) eqn:Q; auto. destruct (j =? d) eqn:Q2; [|apply (hi_nd _ _ _ HI); auto]. constructor; [|apply (hi_nd _ _ _ HI); auto].
    intro X. pose proof (hi_dj _ _ _ HI i j a I J Ia X). lia.
  - intros j q x J Q X Y. destruct (A j x J X) as [[A1 A2]|(A1 & A2 & A3)], (A q x Q Y) as [[B1 B2]|(B1 & B2 & B3)]; try congruence. apply (hi_dj _ _ _ HI j q x); auto.
Qed.
Lemma free_blk : forall a, free ls a -> exists b, In b (blocks L) /\ ba b = a /\ btag b = a + 8 /\ bofs b = [].
Proof. intros a (i & I & A). destruct (hi_fr _ _ _ HI i a I A) as (b & B1 & B2 & B3 & B4 & _). exists b. auto. Qed.
Lemma far : forall x b, free ls x -> In b (blocks L) -> x <> ba b -> ~ (ba b <= x + 24 < ba b + bsz b).
Proof.
  intros x b F B N Q. destruct (free_blk x F) as (d & D1 & D2 & _). pose proof (bsz_pos _ _ _ P D1). assert (b = d) by (apply (block_same L 1 _ _ (x + 24) P); auto; lia). congruence.
Qed.
Lemma blk_mapped : forall b a, In b (blocks L) -> ba b <= a < ba b + bsz b -> (exists k, a = 8 * k) -> hm s a <> None.
Proof.
  intros b a B A K. apply (ho_map _ _ _ _ (hi_ok _ _ _ HI)); auto. destruct (block_chunk _ _ _ P B) as (c & C1 & C2 & C3 & C4 & _). exists c. split; auto. lia.
Qed.
Lemma blk_al : forall b, In b (blocks L) -> (exists j, ba b = 8 * j) /\ 0 < ba b /\ 32 <= bsz b.
Proof. intros b B. destruct (block_chunk _ _ _ P B) as (c & C1 & C2 & C3 & C4 & (k & K1 & K2) & C5 & _ & C6). split; auto. lia. Qed.
Lemma free_words : forall b, In b (blocks L) -> btag b = ba b + 8 -> bofs b = [] -> words (hm s) (ba b) [ba b + 8; bsz b; -8].
Proof.
  intros b B T O. pose proof (ho_head _ _ _ _ (hi_ok _ _ _ HI) b B) as H1. pose proof (ho_tab _ _ _ _ (hi_ok _ _ _ HI) b B) as H2. unfold table in H2. rewrite T, O in H2. cbn [words app] in *. rewrite zlen_nil in H2. replace (isin (ptr b) []) with false in H1 by reflexivity. rewrite T, Z.add_0_r in H1. tauto.
Qed.
Lemma put3 : forall (m : mem) e v, m e <> None -> m (e + 8) <> None -> m (e + 16) <> None ->
  forall A (f : mem -> res A), (let* m := put m (e + 8) v in let* m := put m (e + 16) (-8) in let* m := put m e (e + 8) in f m) = f (upd (upd (upd m (e + 8) v) (e + 16) (-8)) e (e + 8)).
Proof. intros m e v A B C T f. rewrite put_chain by auto. rewrite bind_ok. rewrite put_chain by (repeat apply upd_dom; auto). rewrite bind_ok. rewrite put_chain by (repeat apply upd_dom; auto). rewrite bind_ok. reflexivity. Qed.

Lemma small_taken : forall k i, 1 <= k <= i -> i <= 8 -> ix (fl s) i <> 0 ->
  exists b m1 fl1 ls1 j, unlink_small (32 * k) k i (ix (fl s) i) s = Ok (ba b + 32 * j, m1, fl1) /\ In b (blocks L) /\ free ls (ba b) /\ 0 <= j /\ bsz b = 32 * j + 32 * k /\ taken m1 fl1 (big s) ls1 b (32 * j).
Proof.
  intros k i K I8 Nz. assert (I : 1 <= i <= 9) by lia. pose proof (hi_ls _ _ _ HI) as [L1 L2 L3 L4]. pose proof (L3 i ltac:(lia)) as LK. destruct (ls i) as [|a r] eqn:El; [cbn [linked] in LK; congruence|].
  assert (Fa : free ls a) by (exists i; rewrite El; split; [lia|left; auto]).
  destruct (hi_fr _ _ _ HI i a I) as (b & B1 & B2 & B3 & B4 & B5); [rewrite El; left; auto|]. specialize (B5 ltac:(lia)). cbn [linked] in LK. destruct LK as (Ea & A0 & nx & N & LK). rewrite Ea.
  destruct (blk_al b B1) as ((q & Q) & Q0 & _).
  assert (MP : forall d, 0 <= d < 4 * i -> hm s (a + 8 * d) <> None) by (intros d D; apply (blk_mapped b); auto; [lia|exists (q + d); lia]).
  assert (F0 : free ls (ba b)) by (rewrite B2; auto).
  unfold unlink_small. rewrite (get_ok _ _ _ N), bind_ok. rewrite setA_ix, bind_ok by lia. destruct (Z.eq_dec i k) as [->|Nk].
  - rewrite Z.eqb_refl. cbn [negb]. exists b, (hm s), (set_nth (Z.to_nat k) nx (fl s)), (ls2 k 0 a r), 0. split; [do 3 f_equal; lia|]. split; auto. split; auto. split; [lia|]. split; [lia|].
    destruct (ls2_ok k 0 a [] r I ltac:(lia) El) as (O1 & O2 & O3). cbn [app] in *. constructor; auto; try lia.
    + constructor; [rewrite zlen_set; auto|rewrite ix_upd by lia; replace (9 =? k) with false by lia; auto| |].
      * intros j J. rewrite ix_upd by lia. unfold ls2. destruct (j =? k) eqn:Z0; auto. replace (j =? 0) with false by lia. auto.
      * unfold ls2. replace (9 =? k) with false by lia. replace (9 =? 0) with false by lia. auto.
    + intros j x J X. rewrite B2. destruct (O1 j x J X) as [|]; auto. lia.
  - replace (i =? k) with false by lia. cbn [negb].
    replace (32 * k) with (32 * k) by lia. set (d := i - k). set (e := a + d * 32). assert (Hd : 1 <= d <= 7) by lia.
    rewrite put3; [|replace e with (a + 8 * (4 * d)) by lia; apply MP; lia|replace (e + 8) with (a + 8 * (4 * d + 1)) by lia; apply MP; lia|replace (e + 16) with (a + 8 * (4 * d + 2)) by lia; apply MP; lia].
    set (m0 := upd (upd (upd (hm s) (e + 8) (32 * k)) (e + 16) (-8)) e (e + 8)).
    assert (F3 : forall x, ~ (e <= x <= e + 16) -> m0 x = hm s x) by (intros x X; unfold m0; rewrite !upd_other by lia; reflexivity).
    assert (D8 : hm s (a + 8) <> None) by (apply (MP 1); lia). assert (D24 : hm s (a + 24) <> None) by (apply (MP 3); lia).
    rewrite put_chain by (repeat apply upd_dom; auto). rewrite bind_ok. rewrite getA_ix, bind_ok by (rewrite ?zlen_set; lia). rewrite ix_upd by lia. replace (d =? i) with false by lia.
    rewrite put_chain by (repeat apply upd_dom; auto). rewrite bind_ok. rewrite setA_ix, bind_ok by (rewrite ?zlen_set; lia).
    set (m2 := upd (upd m0 (a + 8) (d * 32)) (a + 24) (ix (fl s) d)).
    eexists b, m2, _, (ls2 i d a r), d. split; [do 3 f_equal; lia|]. split; auto. split; auto. split; [lia|]. split; [lia|].
    destruct (ls2_ok i d a [] r I ltac:(lia) El) as (O1 & O2 & O3). cbn [app] in *.
    assert (FR : forall x, ~ (ba b <= x < ba b + bsz b) -> m2 x = hm s x).
    { intros x X. unfold m2. rewrite !upd_other by lia. apply F3. lia. }
    assert (LF : forall h l, (forall x, In x l -> free ls x /\ x <> a) -> linked (hm s) h l -> linked m2 h l).
    { intros h l X. apply linked_frame. intros x Ix. destruct (X x Ix) as [X1 X2]. apply FR. apply far; auto. congruence. }
    constructor; auto.
    + constructor.
      * rewrite !zlen_set. auto.
      * rewrite !ix_upd by (rewrite ?zlen_set; lia). replace (9 =? d) with false by lia. replace (9 =? i) with false by lia. auto.
      * intros j J. rewrite !ix_upd by (rewrite ?zlen_set; lia). unfold ls2. destruct (j =? d) eqn:J1.
        -- replace (j =? i) with false by lia. replace j with d in * by lia. cbn [linked]. split; auto. split; auto. exists (ix (fl s) d). split; [apply upd_same|]. apply LF; auto. intros x Ix. split; [exists d; split; auto; lia|]. intros ->.
           assert (i = d) by (apply (hi_dj _ _ _ HI i d a); auto; [lia|rewrite El; left; auto]). lia.
        -- destruct (j =? i) eqn:J2.
           ++ apply LF; auto. intros x Ix. split; [exists i; rewrite El; split; auto; right; auto|]. intros ->. pose proof (hi_nd _ _ _ HI i I) as ND. rewrite El in ND. inversion ND; auto.
           ++ apply LF; auto. intros x Ix. split; [exists j; split; auto; lia|]. intros ->. assert (i = j) by (apply (hi_dj _ _ _ HI i j a); auto; [lia|rewrite El; left; auto]). lia.
      * unfold ls2. replace (9 =? i) with false by lia. replace (9 =? d) with false by lia. apply LF; auto. intros x Ix. split; [exists 9; split; auto; lia|]. intros ->. assert (i = 9) by (apply (hi_dj _ _ _ HI i 9 a); auto; [lia|rewrite El; left; auto]). lia.
    + intros j x J X. rewrite B2. destruct (O1 j x J X) as [|(-> & -> & _)]; auto. right. lia.
    + intros x X. repeat apply upd_dom. auto.
    + intros _. pose proof (free_words b B1 ltac:(congruence) B4) as W. rewrite B2 in *. cbn [words] in *. destruct W as (W1 & W2 & W3 & _). replace (a + 8 + 8) with (a + 16) in * by lia. unfold m2. split; [|split; [|split]]; auto.
      * rewrite !upd_other by lia. rewrite F3 by lia. auto.
      * rewrite upd_other by lia. rewrite upd_same. f_equal. lia.
      * rewrite !upd_other by lia. rewrite F3 by lia. auto.
Qed.

Lemma big_taken : forall k p a r t, 1 <= k -> ls 9 = p ++ a :: r -> hm s (a + 8) = Some t -> 32 * k <= t ->
  exists b m1 fl1 bg1 ls1 j, unlink_big (32 * k) (last p 0) a t s = Ok (ba b + 32 * j, m1, fl1, bg1) /\ In b (blocks L) /\ free ls (ba b) /\ 0 <= j /\ bsz b = 32 * j + 32 * k /\ taken m1 fl1 bg1 ls1 b (32 * j).
Proof.
  intros k p a r t K El Ht Kt. pose proof (hi_ls _ _ _ HI) as [L1 L2 L3 L4].
  assert (Ia : In a (ls 9)) by (rewrite El; apply in_or_app; right; left; auto).
  assert (Fa : free ls a) by (exists 9; split; [lia|auto]).
  destruct (hi_fr _ _ _ HI 9 a ltac:(lia) Ia) as (b & B1 & B2 & B3 & B4 & _).
  destruct (blk_al b B1) as ((q & Q) & Q0 & _). destruct (block_chunk _ _ _ P B1) as (c & _ & _ & _ & _ & (u & U1 & U2) & _).
  pose proof (free_words b B1 ltac:(congruence) B4) as W. rewrite B2 in W. cbn [words] in W. destruct W as (W1 & W2 & W3 & _). replace (a + 8 + 8) with (a + 16) in W3 by lia.
  rewrite Ht in W2. inversion W2; subst t. clear W2.
  assert (MP : forall d, 0 <= d < 4 * u -> hm s (a + 8 * d) <> None) by (intros d D; apply (blk_mapped b); auto; [lia|exists (q + d); lia]).
  assert (F0 : free ls (ba b)) by (rewrite B2; auto). pose proof (hi_nd _ _ _ HI 9 ltac:(lia)) as ND. rewrite El in ND.
  set (d := u - k). assert (Ed : bsz b - 32 * k = 32 * d) by lia. assert (D0 : 0 <= d) by lia.
  unfold unlink_big. rewrite Ed. set (e := a + 32 * d).
  rewrite put3; [|replace e with (a + 8 * (4 * d)) by lia; apply MP; lia|replace (e + 8) with (a + 8 * (4 * d + 1)) by lia; apply MP; lia|replace (e + 16) with (a + 8 * (4 * d + 2)) by lia; apply MP; lia].
  set (m0 := upd (upd (upd (hm s) (e + 8) (32 * k)) (e + 16) (-8)) e (e + 8)).
  assert (F3 : forall x, ~ (e <= x <= e + 16) -> m0 x = hm s x) by (intros x X; unfold m0; rewrite !upd_other by lia; reflexivity).
  assert (D8 : hm s (a + 8) <> None) by (apply (MP 1); lia). assert (D24 : hm s (a + 24) <> None) by (apply (MP 3); lia).
  assert (W0 : forall m2 : mem, 0 < d -> (forall x, x = a \/ x = a + 16 -> m2 x = m0 x) -> m2 (a + 8) = Some (32 * d) -> 0 < 32 * d -> words m2 (ba b) [ba b + 8; 32 * d; -8]).
  { intros m2 Pd A8 E8 _. rewrite B2. cbn [words]. replace (a + 8 + 8) with (a + 16) by lia. rewrite (A8 a), (A8 (a + 16)) by auto. rewrite (F3 a), (F3 (a + 16)) by lia. auto. }
  change (9 * 32) with 288. destruct (288 <? 32 * d) eqn:E9.
  - rewrite put_chain by (repeat apply upd_dom; auto). rewrite bind_ok. set (m2 := upd m0 (a + 8) (32 * d)).
    assert (FR : forall x, ~ (ba b <= x < ba b + bsz b) -> m2 x = hm s x) by (intros x X; unfold m2; rewrite !upd_other by lia; apply F3; lia).
    assert (LF : forall h l, (forall x, In x l -> free ls x) -> linked (hm s) h l -> linked m2 h l).
    { intros h l X. apply linked_frame. intros x Ix. destruct (Z.eq_dec x a) as [->|Nx]; [unfold m2; rewrite upd_other by lia; apply F3; lia|]. apply FR. apply far; auto. congruence. }
    exists b, m2, (fl s), (big s), ls, d. split; [do 4 f_equal; lia|]. split; auto. split; auto. split; [lia|]. split; [lia|]. constructor; auto.
    + constructor; auto; [intros j J; apply LF; auto; intros x Ix; exists j; split; auto; lia|apply LF; auto; intros x Ix; exists 9; split; auto; lia].
    + intros j x J X. destruct (Z.eq_dec x (ba b)) as [->|Nx]; [right|auto]. split; auto. split; [lia|]. intro J9. assert (j = 9) by (apply (hi_dj _ _ _ HI j 9 (ba b)); auto; [lia|rewrite B2; auto]). lia.
    + apply (hi_nd _ _ _ HI).
    + apply (hi_dj _ _ _ HI).
    + intros x X. repeat apply upd_dom. auto.
    + apply W0; [lia|intros x X; unfold m2; rewrite upd_other by lia; auto|apply upd_same].
  - destruct (linked_mid _ _ _ _ _ (eq_ind _ (fun l => linked (hm s) (big s) l) L4 _ El)) as (nx & N & LK). rewrite (get_ok m0 (a + 24) nx) by (rewrite F3 by lia; auto). rewrite bind_ok.
    (* the list of big blocks without a *)
    assert (UB : exists (m1 : mem) bg1, (if last p 0 =? 0 then Ok (m0, nx) else let* m := put m0 (last p 0 + 24) nx in Ok (m, big s)) = Ok (m1, bg1) /\ linked m1 bg1 (p ++ r) /\
       (forall x, ~ (ba b <= x < ba b + bsz b) -> (forall y, free ls y -> x <> y + 24) -> m1 x = hm s x) /\ (forall x, hm s x <> None -> m1 x <> None) /\ (forall x, ba b <= x < ba b + bsz b -> m1 x = m0 x) /\
       (forall x i, free ls x -> ~ In x (ls 9) -> In x (ls i) -> m1 (x + 24) = hm s (x + 24)) /\ (p = [] -> m1 = m0)).
    { destruct p as [|y p].
      - cbn [last app]. change (0 =? 0) with true. cbn [app] in *. exists m0, nx. split; auto.
        assert (G : forall x, ~ (ba b <= x < ba b + bsz b) -> m0 x = hm s x) by (intros x X; apply F3; lia).
        split; [|split; [|split; [|split; [|split]]]]; auto.
        + apply (linked_frame (hm s)); auto. intros x Ix. apply G. apply far; auto; [exists 9; rewrite El; split; [lia|right; auto]|]. inversion ND; subst. congruence.
        + intros x X. repeat apply upd_dom; auto.
        + intros x i X X9 Xi. apply G. apply far; auto. intros ->. apply X9. rewrite B2. auto.
      - set (l := last (y :: p) 0). assert (Il : In l (y :: p)) by (apply last_in; discriminate). assert (Fl : free ls l) by (exists 9; rewrite El; split; [lia|apply in_or_app; auto]).
        assert (Nl : l <> a) by (intros ->; apply NoDup_remove_2 in ND; apply ND; apply in_or_app; auto).
        destruct (free_blk l Fl) as (bl & G1 & G2 & _). destruct (blk_al bl G1) as ((ql & G3) & G4 & G5). replace (l =? 0) with false by lia.
        assert (Dl : hm s (l + 24) <> None) by (apply (blk_mapped bl); auto; [lia|exists (ql + 3); lia]).
        assert (Lf : ~ (ba b <= l + 24 < ba b + bsz b)) by (apply far; auto; congruence).
        assert (E0 : m0 (l + 24) <> None) by (repeat apply upd_dom; auto). rewrite (put_chain _ _ _ E0), bind_ok. set (m1 := upd m0 (l + 24) nx). exists m1, (big s). split; auto.
        assert (G : forall x, ~ (ba b <= x < ba b + bsz b) -> x <> l + 24 -> m1 x = hm s x) by (intros x X X2; unfold m1; rewrite upd_other by auto; apply F3; lia).
        split; [|split; [|split; [|split; [|split]]]].
        + apply (linked_unlink (hm s) m1 (y :: p) (big s) a r nx); auto; [rewrite <- El; auto|discriminate|unfold m1; apply upd_same|]. fold l. intros x Ix Nx. apply G; [|lia]. apply far; auto; [exists 9; rewrite El; split; [lia|apply in_app_or in Ix; apply in_or_app; cbn [In]; tauto]|].
          rewrite B2. intros ->. apply NoDup_remove_2 in ND. auto.
        + intros x X X2. apply G; auto.
        + intros x X. repeat apply upd_dom; auto.
        + intros x X. unfold m1. apply upd_other. intros ->. auto.
        + intros x i X X9 Xi. apply G; [apply far; auto; intros ->; apply X9; rewrite B2; auto|]. intro Z1. assert (x = l) by lia. subst x. apply X9. rewrite El. apply in_or_app. auto.
        + discriminate. }
    destruct UB as (m1 & bg1 & UE & UL & UF & UD & UI & UO & _). rewrite UE, bind_ok. cbv iota beta. destruct (Z.eq_dec d 0) as [Zd|Nd].
    + rewrite Zd. change (negb (32 * 0 =? 0)) with false. cbv iota. exists b, m1, (fl s), bg1, (ls2 9 0 a (p ++ r)), 0. split; [do 4 f_equal; lia|]. split; auto. split; auto. split; [lia|]. split; [lia|].
      destruct (ls2_ok 9 0 a p r ltac:(lia) ltac:(lia) El) as (O1 & O2 & O3). constructor; auto; try lia.
      * constructor; auto. intros j J. unfold ls2. replace (j =? 9) with false by lia. replace (j =? 0) with false by lia. apply (linked_frame (hm s)); auto. intros x Ix. apply (UO x j); auto; [exists j; split; auto; lia|].
        intro X9. assert (j = 9) by (apply (hi_dj _ _ _ HI j 9 x); auto; lia). lia.
      * intros j x J X. rewrite B2. destruct (O1 j x J X) as [|]; auto. lia.
    + replace (32 * d =? 0) with false by lia. cbn [negb]. replace (32 * d / 32) with d by (rewrite Z.mul_comm, Z.div_mul; lia).
      rewrite put_chain by auto. rewrite bind_ok. rewrite getA_ix, bind_ok by lia. rewrite put_chain by (apply upd_dom; auto). rewrite bind_ok. rewrite setA_ix, bind_ok by lia.
      set (m2 := upd (upd m1 (a + 8) (32 * d)) (a + 24) (ix (fl s) d)). eexists b, m2, _, bg1, (ls2 9 d a (p ++ r)), d. split; [do 4 f_equal; lia|]. split; auto. split; auto. split; [lia|]. split; [lia|].
      assert (M21 : forall x, x <> a + 8 -> x <> a + 24 -> m2 x = m1 x) by (intros x X Y; unfold m2; rewrite !upd_other by lia; auto).
      destruct (ls2_ok 9 d a p r ltac:(lia) ltac:(lia) El) as (O1 & O2 & O3).
      assert (LF : forall h l, (forall x, In x l -> free ls x /\ x <> a) -> linked m1 h l -> linked m2 h l).
      { intros h l X. apply linked_frame. intros x Ix. destruct (X x Ix) as [X1 X2]. assert (~ (ba b <= x + 24 < ba b + bsz b)) by (apply far; auto; congruence). apply M21; lia. }
      constructor; auto.
      * constructor.
        -- rewrite zlen_set. auto.
        -- rewrite ix_upd by lia. destruct (9 =? d); auto. lia.
        -- intros j J. rewrite ix_upd by lia.
           assert (LJ : linked m2 (ix (fl s) j) (ls j)).
           { apply LF; [intros x Ix; split; [exists j; split; auto; lia|intros ->; assert (j = 9) by (apply (hi_dj _ _ _ HI j 9 a); auto; lia); lia]|]. apply (linked_frame (hm s)); auto. intros x Ix. apply (UO x j); auto; [exists j; split; auto; lia|].
             intro X9. assert (j = 9) by (apply (hi_dj _ _ _ HI j 9 x); auto; lia). lia. }
           unfold ls2. replace (j =? 9) with false by lia. destruct (j =? d) eqn:J1; auto. replace j with d in * by lia. cbn [linked]. split; auto. split; [lia|]. exists (ix (fl s) d). split; auto. unfold m2. apply upd_same.
        -- unfold ls2. change (9 =? 9) with true. cbv iota. apply LF; auto. intros x Ix. split; [exists 9; rewrite El; split; [lia|apply in_app_or in Ix; apply in_or_app; cbn [In]; tauto]|]. intros ->. apply NoDup_remove_2 in ND. auto.
      * intros j x J X. rewrite B2. destruct (O1 j x J X) as [|(-> & -> & Hj)]; auto. right. lia.
      * intros x X Y. rewrite M21 by lia. auto.
      * intros x X. repeat apply upd_dom. auto.
      * apply W0; [lia| |]; unfold m2.
        -- intros x X. rewrite !upd_other by lia. apply UI. lia.
        -- rewrite upd_other by lia. apply upd_same.
Qed.

(** * One attempt *)
Record carved (s' : hst) (ls1 : Z -> list Z) (b : blk) (rest k tag : Z) : Prop := {
  cv_take : taken (hm s') (fl s') (big s') ls1 b rest;
  cv_tag : hm s' (ba b + rest) = Some tag;
  cv_zero : forall a, ba b + rest < a < ba b + bsz b -> (exists j, a = 8 * j) -> hm s' a = Some 0;
  cv_alloc : allocd s' = allocd s + 32 * k;
  cv_same : heap s' = heap s /\ hmin s' = hmin s /\ hmax s' = hmax s /\ hsize s' = hsize s /\ hexp s' = hexp s /\ tick s' = tick s
}.
Lemma taken_finish : forall m1 fl1 bg1 ls1 b j k tag, taken m1 fl1 bg1 ls1 b (32 * j) -> In b (blocks L) -> 0 <= j -> 1 <= k -> bsz b = 32 * j + 32 * k ->
  exists N s', (forall fuel, (N <= fuel)%nat -> finish fuel tag (32 * k) (ba b + 32 * j) m1 fl1 bg1 s = Ok (ba b + 32 * j + 8, s')) /\ carved s' ls1 b (32 * j) k tag.
Proof.
  intros m1 fl1 bg1 ls1 b j k tag T B J K Sz. destruct (blk_al b B) as ((q & Q) & Q0 & _).
  destruct (finish_spec tag k (ba b + 32 * j) m1 fl1 bg1 s K) as (N & m' & A1 & A2 & A3 & A4 & A5); [exists (q + 4 * j); lia| |].
  { intros a Ha Ka. apply (tk_dom _ _ _ _ _ _ T). apply (blk_mapped b); auto. lia. }
  eexists N, _. split; [exact A1|]. destruct T as [T1 T2 T3 T4 T5 T6 T7].
  assert (OUT : forall i a, 1 <= i <= 9 -> In a (ls1 i) -> m' (a + 24) = m1 (a + 24)).
  { intros i a I A. apply A4. destruct (T2 i a I A) as [[X Y]|(-> & X & _)]; [|left; lia]. assert (~ (ba b <= a + 24 < ba b + bsz b)) by (apply far; auto; exists i; auto). lia. }
  constructor; cbn [hm fl big allocd heap hmin hmax hsize hexp tick]; auto.
  - constructor; auto.
    + destruct T1 as [R1 R2 R3 R4]. constructor; auto.
      * intros i I. apply (linked_frame m1); auto. intros a A. apply (OUT i a); auto. lia.
      * apply (linked_frame m1); auto. intros a A. apply (OUT 9 a); auto. lia.
    + intros a A X. rewrite A4 by lia. auto.
    + intro R. apply (words_frame m1); auto. rewrite !zlen_cons, zlen_nil. intros i I. apply A4. lia.
  - intros a Ha. apply A3. lia.
  - repeat split.
Qed.
Lemma try_alloc_spec : forall tag k, hm s tag = Some (32 * k) -> 1 <= k ->
  exists N, ((forall fuel, (N <= fuel)%nat -> try_alloc fuel tag s = Ok (0, s)) /\ (forall i, k <= i <= 8 -> ls i = []) /\ (forall b, In b (blocks L) -> In (ba b) (ls 9) -> bsz b < 32 * k)) \/
    exists s' ls1 b j, (forall fuel, (N <= fuel)%nat -> try_alloc fuel tag s = Ok (ba b + 32 * j + 8, s')) /\ In b (blocks L) /\ free ls (ba b) /\ 0 <= j /\ bsz b = 32 * j + 32 * k /\ carved s' ls1 b (32 * j) k tag.
Proof.
  intros tag k Ht K. pose proof (hi_ls _ _ _ HI) as [L1 L2 L3 L4].
  assert (PRE : forall fuel, try_alloc fuel tag s = (let* (i, adr) := (if k <? 9 then find_list fuel (fl s) k else Ok (k, 0)) in
    if i <? 9 then let* r := unlink_small (32 * k) k i adr s in let '(adr, m, fl) := r in finish fuel tag (32 * k) adr m fl (big s) s
    else let* o := search_big fuel (hm s) (32 * k) 0 (big s) in
      match o with None => Ok (0, s) | Some (prev, adr, t) => let* r := unlink_big (32 * k) prev adr t s in let '(adr, m, fl, bg) := r in finish fuel tag (32 * k) adr m fl bg s end)).
  { intro fuel. unfold try_alloc. rewrite (get_ok _ _ _ Ht), bind_ok. replace (32 * k mod 32) with 0 by (rewrite Z.mul_comm, Z.mod_mul; lia). cbn [Z.eqb negb]. rewrite shiftr5. reflexivity. }
  assert (BIG : forall n, (forall i, k <= i <= 8 -> ls i = []) -> (forall fuel, (n <= fuel)%nat -> try_alloc fuel tag s = (let* o := search_big fuel (hm s) (32 * k) 0 (big s) in
      match o with None => Ok (0, s) | Some (prev, adr, t) => let* r := unlink_big (32 * k) prev adr t s in let '(adr, m, fl, bg) := r in finish fuel tag (32 * k) adr m fl bg s end)) ->
    exists N, ((forall fuel, (N <= fuel)%nat -> try_alloc fuel tag s = Ok (0, s)) /\ (forall i, k <= i <= 8 -> ls i = []) /\ (forall b, In b (blocks L) -> In (ba b) (ls 9) -> bsz b < 32 * k)) \/
      exists s' ls1 b j, (forall fuel, (N <= fuel)%nat -> try_alloc fuel tag s = Ok (ba b + 32 * j + 8, s')) /\ In b (blocks L) /\ free ls (ba b) /\ 0 <= j /\ bsz b = 32 * j + 32 * k /\ carved s' ls1 b (32 * j) k tag).
  { intros n EM EQ.
    assert (SZ : forall a, In a (ls 9) -> exists t, hm s (a + 8) = Some t).
    { intros a A. destruct (free_blk a) as (b & B1 & B2 & B3 & B4); [exists 9; split; auto; lia|]. pose proof (free_words b B1 ltac:(congruence) B4) as W. cbn [words] in W. rewrite B2 in W. exists (bsz b). tauto. }
    destruct (search_big_spec (hm s) (32 * k) (ls 9) (big s) 0 L4 SZ) as (N & [(A & B)|(p & a & r & t & A & B & C & D)]).
    - exists (n + N)%nat. left. split; [|split; auto].
      + intros fuel F. rewrite EQ by lia. rewrite A by lia. reflexivity.
      + intros b Ib I9. destruct (hi_fr _ _ _ HI 9 _ ltac:(lia) I9) as (d & D1 & D2 & D3 & D4 & _). apply (B (ba b)); auto.
        assert (d = b). { pose proof (bsz_pos _ _ _ P D1). pose proof (bsz_pos _ _ _ P Ib). apply (block_same L 1 _ _ (ba b) P); auto; lia. } subst d. pose proof (free_words b Ib D3 D4) as W. cbn [words] in W. tauto.
    - destruct (big_taken k p a r t K A B C) as (b & m1 & fl1 & bg1 & ls1 & j & E1 & E2 & E3 & E4 & E5 & E6).
      destruct (taken_finish m1 fl1 bg1 ls1 b j k tag E6 E2 E4 K E5) as (N2 & s' & G1 & G2). exists (n + N + N2)%nat. right. exists s', ls1, b, j. split; [|auto].
      intros fuel F. rewrite EQ by lia. rewrite D by lia. rewrite bind_ok. cbv iota beta. rewrite E1, bind_ok. cbv iota beta. apply G1. lia. }
  destruct (k <? 9) eqn:E9.
  - destruct (find_list_spec (Z.to_nat (9 - k)) (S (Z.to_nat (9 - k))) (fl s) k L1 L2 ltac:(lia) ltac:(lia) ltac:(lia)) as (i & A & B & C & D).
    assert (A' : forall fuel, (S (Z.to_nat (9 - k)) <= fuel)%nat -> find_list fuel (fl s) k = Ok (i, ix (fl s) i)).
    { intros fuel F. destruct (find_list_spec (Z.to_nat (9 - k)) fuel (fl s) k L1 L2 ltac:(lia) ltac:(lia) ltac:(lia)) as (i' & A2 & B2 & C2 & D2). rewrite A2. replace i' with i; auto.
      destruct (Z_lt_le_dec i i'); [specialize (D2 i ltac:(lia)); congruence|]. destruct (Z_lt_le_dec i' i); [specialize (D i' ltac:(lia)); congruence|]. lia. }
    assert (EMP : forall q, k <= q < i -> ls q = []).
    { intros q Q. specialize (D q Q). specialize (L3 q ltac:(lia)). rewrite D in L3. destruct (ls q); auto. cbn [linked] in L3. destruct L3 as (<- & Y & _). congruence. }
    destruct (i <? 9) eqn:I9.
    + destruct (small_taken k i ltac:(lia) ltac:(lia) C) as (b & m1 & fl1 & ls1 & j & E1 & E2 & E3 & E4 & E5 & E6).
      destruct (taken_finish m1 fl1 (big s) ls1 b j k tag E6 E2 E4 K E5) as (N2 & s' & G1 & G2). exists (S (Z.to_nat (9 - k)) + N2)%nat. right. exists s', ls1, b, j. split; [|auto].
      intros fuel F. rewrite PRE. rewrite A' by lia. rewrite bind_ok. cbv iota beta. rewrite I9. rewrite E1, bind_ok. cbv iota beta. apply G1. lia.
    + apply (BIG (S (Z.to_nat (9 - k)))); [intros q Q; apply EMP; lia|]. intros fuel F. rewrite PRE. rewrite A' by lia. rewrite bind_ok. cbv iota beta. rewrite I9. reflexivity.
  - apply (BIG O); [intros; lia|]. intros fuel F. rewrite PRE, bind_ok. cbv iota beta. rewrite E9. reflexivity.
Qed.
End ALLOC.
