From Verif Require Import Base ArrZ HeapModel HeapSpec MarkProofs LayProofs SortProofs ScanProofs AllocProofs CarveProofs ExtendProofs HeapProps GCProofs NewProofs TransProofs ArrayModel.

(** * Allocation without a type descriptor *)
(** A block that carries its own descriptor. *)
Record selfd (b : blk) : Prop := {
  sd_even : Z.odd (btag b) = false;
  sd_nd : NoDup (bofs b);
  sd_ofs : forall o, In o (bofs b) -> 0 <= o /\ ptr b + o + 8 <= ba b + bsz b /\ exists k, o = 8 * k;
  sd_tab : ptr b <= btag b /\ btag b + 8 * (zlen (bofs b) + 2) <= ba b + bsz b /\ forall o, In o (bofs b) -> ptr b + o + 8 <= btag b
}.
(** The storage at new is cleared; once it is given a descriptor, the heap is valid. *)
Record raw (K : blk -> Prop) (s : hst) (L : list chunk) (ls : Z -> list Z) (s' : hst) (new bs : Z) : Prop := {
  rw_al : exists k, new = 16 * k;
  rw_pos : 8 < new;
  rw_zero : forall a, new <= a < new - 8 + bs -> (exists j, a = 8 * j) -> hm s' a = Some 0;
  rw_tag : hm s' (new - 8) <> None;
  rw_out : forall a, hm s a <> None -> ~ inside L a -> hm s' a = hm s a /\ ~ (new - 8 <= a < new - 8 + bs);
  rw_fin : forall nb (m3 : mem), ba nb = new - 8 -> bsz nb = bs -> (forall a, ~ (new - 8 <= a < new - 8 + bs) -> m3 a = hm s' a) -> (forall a, hm s' a <> None -> m3 a <> None) ->
    selfd nb -> words m3 (btag nb) (table nb) -> m3 (ba nb) = Some (btag nb) -> (forall o, In o (bofs nb) -> m3 (ptr nb + o) = Some 0) ->
    exists L' ls', evolves K s L ls (setmem m3 s') L' ls' /\ In nb (blocks L') /\ ~ free ls' (ba nb) /\
      (forall b, In b (blocks L) -> ~ free ls (ba b) -> K b -> ba b + bsz b <= ba nb \/ ba nb + bsz nb <= ba b)
}.
Lemma raw_attempt : forall s L ls tag bs, hinv s L ls -> hm s tag = Some bs -> (exists k, 1 <= k /\ bs = 32 * k) ->
  exists N new s', (forall fuel, (N <= fuel)%nat -> try_alloc fuel tag s = Ok (new, s')) /\
    ((new = 0 /\ s' = s /\ forall b, In b (blocks L) -> In (ba b) (ls 9) -> bsz b < bs) \/ (new <> 0 /\ raw (fun _ => True) s L ls s' new bs)).
Proof.
  intros s L ls tag bs HI Hb (k & K1 & K2). pose proof (ho_placed _ _ _ _ (hi_ok _ _ _ HI)) as P. rewrite K2 in Hb.
  destruct (try_alloc_spec s L ls HI tag k Hb K1) as (N & [(A & B & C)|(s' & ls1 & b & j & A & B & F & J & Sz & CV)]).
  - exists N, 0, s. split; auto. left. split; auto. split; auto. intros b B1 B2. specialize (C b B1 B2). lia.
  - set (new := ba b + 32 * j + 8) in *. exists N, new, s'. split; auto. right. destruct (blk_al _ _ _ HI b B) as ((bk & Al) & Po & _). split; [lia|].
    pose proof (cv_take _ _ _ _ _ _ _ _ CV) as T. destruct (cv_same _ _ _ _ _ _ _ _ CV) as (S1 & S2 & S3 & S4 & S5 & S6).
    assert (OUT : forall a, ~ inside L a -> hm s' a = hm s a).
    { intros a Na. apply (out_same s L ls HI s' ls1 b j); auto. intros d D Q. apply Na. apply (block_in L 1 d); auto. }
    assert (ZR : forall a, new <= a < new - 8 + bs -> (exists i, a = 8 * i) -> hm s' a = Some 0) by (intros a Q Ka; apply (cv_zero _ _ _ _ _ _ _ _ CV); auto; unfold new in Q; lia).
    constructor; auto.
    + destruct (ptr_al16 L b P B) as (q & Q). exists (q + 2 * j). unfold ptr in Q. unfold new. lia.
    + unfold new. lia.
    + replace (new - 8) with (ba b + 32 * j) by (unfold new; lia). rewrite (cv_tag _ _ _ _ _ _ _ _ CV). discriminate.
    + intros a Ma Na. split; auto. intro Q. apply Na. apply (block_in L 1 b); auto. unfold new in Q. lia.
    + intros nb m3 NB1 NB2 Fr Dm [D1 D2 D3 D4] W1 W2 W3. assert (NB1' : ba nb = ba b + 32 * j) by (unfold new in NB1; lia). assert (NB2' : bsz nb = 32 * k) by lia.
      assert (LNK : forall x, (exists i, 1 <= i <= 9 /\ In x (ls1 i)) -> m3 (x + 24) = hm s' (x + 24)).
      { intros x (i & I & X). apply Fr. destruct (tk_in _ _ _ _ _ _ _ _ T i x I X) as [(Q1 & Q2)|(Q1 & Q2 & Q3)]; [|unfold new; lia].
        destruct (free_blk _ _ _ HI x (ex_intro _ i (conj I Q1))) as (d & E1 & E2 & _). pose proof (bsz_pos _ _ _ P E1). intro Q. assert (d = b) by (apply (block_same L 1 _ _ (x + 24) P); auto; unfold new in *; destruct (blk_al _ _ _ HI d E1) as (_ & _ & S32); lia). subst d. auto. }
      assert (T3 : taken s ls (hm (setmem m3 s')) (fl (setmem m3 s')) (big (setmem m3 s')) ls1 b (32 * j)).
      { destruct T as [[T1a T1b T1c T1d] T2 T3 T4 T5 T6 T7]. constructor; cbn [setmem hm fl big]; auto.
        - constructor; auto; [intros i I; apply (linked_frame (hm s')); auto; intros x X; apply LNK; exists i; split; auto; lia|apply (linked_frame (hm s')); auto; intros x X; apply LNK; exists 9; split; auto; lia].
        - intros a Q1 Q2. rewrite Fr by (unfold new; lia). auto.
        - intro R. apply (words_frame (hm s')); auto. intros q Q. apply Fr. change (zlen [ba b + 8; 32 * j; -8]) with 3 in Q. unfold new. lia. }
      set (L' := recut L b (cut b (32 * j) nb)).
      assert (HI' : hinv (setmem m3 s') L' ls1).
      { apply (carve_hinv s L ls HI (setmem m3 s') ls1 b j k nb); auto; cbn [setmem heap hmin hmax hsize hexp]; auto.
        constructor; auto. }
      exists L', ls1. split; [constructor; auto|split; [|split]].
      * intros d D Nf _. assert (Nb : ba d <> ba b) by (intro E; apply Nf; rewrite E; auto). split; [apply (recut_in L b j nb); auto|]. split.
        -- intros (i & I & Q). destruct (tk_in _ _ _ _ _ _ _ _ T i _ I Q) as [(Q1 & Q2)|(Q1 & Q2)]; auto. apply Nf. exists i. auto.
        -- intros a Q _. apply (live_same s L ls HI (setmem m3 s') ls1 b j B F T3 d); auto.
      * intros a Q Na. cbn [setmem hm]. split; [|intro I; apply Na; apply (recut_inside L b (cut b (32 * j) nb)); auto]. rewrite Fr; auto. intro X. apply Na. apply (block_in L 1 b); auto. unfold new in X. lia.
      * apply (recut_in L b j nb); auto.
      * intros (i & I & Q). destruct (tk_in _ _ _ _ _ _ _ _ T i _ I Q) as [(Q1 & Q2)|(Q1 & Q2 & _)]; [|lia].
        destruct (hi_fr _ _ _ HI i _ I Q1) as (d & E1 & E2 & _). pose proof (bsz_pos _ _ _ P E1). assert (d = b) by (apply (block_same L 1 _ _ (ba d) P); auto; lia). subst d. lia.
      * intros d D Nf _. assert (Nb : d <> b) by (intro E; apply Nf; subst; auto). pose proof (bsz_pos _ _ _ P D). pose proof (bsz_pos _ _ _ P B). destruct (Z_lt_le_dec (ba nb) (ba d + bsz d)) as [Q1|Q1]; [|left; lia]. destruct (Z_lt_le_dec (ba d) (ba nb + bsz nb)) as [Q2|Q2]; [|right; lia].
        exfalso. apply Nb. apply (block_same L 1 _ _ (Z.max (ba d) (ba nb)) P); auto; lia.
Qed.
Lemma raw_trans : forall K s L ls s2 L2 l2 s' new bs, evolves K s L ls s2 L2 l2 -> raw (fun _ => True) s2 L2 l2 s' new bs -> raw K s L ls s' new bs.
Proof.
  intros K s L ls s2 L2 l2 s' new bs [E1 E2 E3] [R1 R2 R3 R4 R5 R6]. constructor; auto.
  - intros a Ma Na. destruct (E3 a Ma Na) as [Q1 Q2]. destruct (R5 a ltac:(congruence) Q2) as [Q3 Q4]. split; [congruence|auto].
  - intros nb m3 A1 A2 A3 A4 A5 A6 A7 A8. destruct (R6 nb m3 A1 A2 A3 A4 A5 A6 A7 A8) as (L' & ls' & Ev & B1 & B2 & B3). exists L', ls'. split; [|split; [|split]]; auto.
    + apply (evolves_trans _ _ _ _ s2 L2 l2); [constructor; auto|apply evolves_all; auto].
    + intros b B F Kb. destruct (E2 b B F Kb) as (Q1 & Q2 & _). apply B3; auto.
Qed.
Lemma NEWREC_raw : forall s L ls os push roots ws fs calls tag bs, hinv s L ls -> honest os -> hm s tag = Some bs -> ~ inside L tag -> (exists k, 1 <= k /\ bs = 32 * k) ->
  Forall (fun q => q = 0 \/ In q (map ptr (blocks L))) roots -> (forall n, In n fs -> In (fobj n) (map ptr (blocks L))) ->
  exists N new s' fs' calls', (forall fuel, (N <= fuel)%nat -> NEWREC fuel os push roots ws tag s fs calls = Ok (new, s', fs', calls')) /\
    ((new = 0 /\ exists t m sz, bs <= sz /\ os t m sz = None) \/ (new <> 0 /\ raw (alive s L roots ws fs) s L ls s' new bs)).
Proof.
  intros s L ls os push roots ws fs calls tag bs HI Ho Hb Ht Hk VR VF. pose proof Hk as (k & K1 & K2).
  destruct (raw_attempt s L ls tag bs HI Hb Hk) as (N1 & new & s1 & A1 & [(-> & -> & _)|(Nn & F1)]).
  2: { exists N1, new, s1, fs, calls. split; [intros fuel F; unfold NEWREC; rewrite A1 by auto; rewrite bind_ok; replace (new =? 0) with false by lia; reflexivity|]. right. split; auto. apply (raw_trans _ s L ls s L ls); auto. apply evolves_refl; auto. }
  destruct (GC_spec s L ls push roots ws fs calls HI VR VF) as (N2 & s2 & L2 & ls2 & M & M1 & fs1 & fs2 & calls2 & A2 & C2 & D1 & D2 & D3 & D4 & _ & D6).
  assert (E2 : evolves (alive s L roots ws fs) s L ls s2 L2 ls2).
  { apply (evolves_weaken (fun b => In (ptr b) M)); [|apply collected_evolves; auto]. intros b (q & [Q|(n & Q1 & ->)] & R); apply D2; [left; apply D1; exists q; auto|right; exists n; auto]. }
  pose proof (ev_inv _ _ _ _ _ _ _ E2) as HI2. destruct (ev_out _ _ _ _ _ _ _ E2 tag ltac:(congruence) Ht) as [Hb2 Ht2]. rewrite Hb in Hb2.
  set (t := Z.shiftr (allocd s2 + (bs + 32)) 7 * (5 * 32)).
  assert (X : exists N3 s3 L3 ls3, (forall fuel, (N3 <= fuel)%nat -> (if hsize s2 <? t then ExtendHeap fuel os true (t - hsize s2) s2 else Ok s2) = Ok s3) /\ evolves (fun _ => True) s2 L2 ls2 s3 L3 ls3).
  { destruct (hsize s2 <? t) eqn:E; [|exists 0%nat, s2, L2, ls2; split; auto; apply evolves_refl; auto]. destruct (hi_size _ _ _ HI2) as (hk & Hk').
    set (q := Z.shiftr (allocd s2 + (bs + 32)) 7) in *. assert (Et : t - hsize s2 = 32 * (5 * q - hk)) by (unfold t; lia).
    destruct (extend_evolves s2 L2 ls2 os true (5 * q - hk) HI2 Ho ltac:(lia)) as (N3 & s3 & L3 & ls3 & A3 & E3 & _). exists N3, s3, L3, ls3. split; auto. rewrite Et. auto. }
  destruct X as (N3 & s3 & L3 & ls3 & A3 & E3). pose proof (ev_inv _ _ _ _ _ _ _ E3) as HI3. destruct (ev_out _ _ _ _ _ _ _ E3 tag ltac:(congruence) Ht2) as [Hb3 Ht3]. rewrite Hb2 in Hb3.
  assert (E23 : evolves (alive s L roots ws fs) s L ls s3 L3 ls3) by (eapply evolves_trans; [exact E2|apply evolves_all; exact E3]).
  assert (PRE : forall fuel, (N1 + N2 + N3 <= fuel)%nat -> NEWREC fuel os push roots ws tag s fs calls = (let* (new, s) := try_alloc fuel tag s3 in if negb (new =? 0) then Ok (new, s, fs2, calls2) else let* s := ExtendHeap fuel os false (bs + 32) s in let* (new, s) := try_alloc fuel tag s in Ok (new, s, fs2, calls2))).
  { intros fuel F. unfold NEWREC. rewrite A1 by lia. rewrite bind_ok. cbn [Z.eqb negb]. rewrite (get_ok _ _ _ Hb), bind_ok. rewrite A2 by lia. rewrite bind_ok. cbv iota beta. fold t. rewrite A3 by lia. rewrite bind_ok. reflexivity. }
  destruct (raw_attempt s3 L3 ls3 tag bs HI3 Hb3 Hk) as (N4 & new4 & s4 & A4 & [(-> & -> & _)|(Nn & F4)]).
  2: { exists (N1 + N2 + N3 + N4)%nat, new4, s4, fs2, calls2. split; [intros fuel F; rewrite PRE by lia; rewrite A4 by lia; rewrite bind_ok; replace (new4 =? 0) with false by lia; reflexivity|]. right. split; auto. apply (raw_trans _ s L ls s3 L3 ls3); auto. }
  assert (Eb : bs + 32 = 32 * (k + 1)) by lia.
  destruct (extend_evolves s3 L3 ls3 os false (k + 1) HI3 Ho ltac:(lia)) as (N5 & s5 & L5 & ls5 & A5 & E5 & R5). pose proof (ev_inv _ _ _ _ _ _ _ E5) as HI5. destruct (ev_out _ _ _ _ _ _ _ E5 tag ltac:(congruence) Ht3) as [Hb5 Ht5]. rewrite Hb3 in Hb5.
  assert (E25 : evolves (alive s L roots ws fs) s L ls s5 L5 ls5) by (eapply evolves_trans; [exact E23|apply evolves_all; exact E5]).
  destruct (raw_attempt s5 L5 ls5 tag bs HI5 Hb5 Hk) as (N6 & new6 & s6 & A6 & R6).
  exists (N1 + N2 + N3 + N4 + N5 + N6)%nat, new6, s6, fs2, calls2. split.
  { intros fuel F. rewrite PRE by lia. rewrite A4 by lia. rewrite bind_ok. cbn [Z.eqb negb]. rewrite Eb, A5 by lia. rewrite bind_ok. rewrite A6 by lia. rewrite bind_ok. reflexivity. }
  destruct R6 as [(-> & -> & R6)|(Nn & F6)]; [left|right; split; auto; apply (raw_trans _ s L ls s5 L5 ls5); auto]. split; auto. destruct R5 as [(t0 & m0 & sz & Q1 & Q2)|(b & Q1 & Q2 & Q3)]; [exists t0, m0, sz; split; auto; lia|]. specialize (R6 b Q1 Q2). lia.
Qed.

(** * Writing sequences of words *)
Fixpoint wr (m : mem) (p : Z) (l : list Z) : mem := match l with [] => m | v :: l => wr (upd m p v) (p + 8) l end.
Lemma wr_other : forall l m p a, (forall k, 0 <= k < zlen l -> a <> p + 8 * k) -> wr m p l a = m a.
Proof.
  induction l as [|v l IH]; intros m p a H; cbn [wr]; auto. rewrite IH; [apply upd_other; specialize (H 0); rewrite zlen_cons in H; pose proof (zlen_nonneg _ l); lia|]. intros k K. specialize (H (k + 1)). rewrite zlen_cons in H. lia.
Qed.
Lemma wr_words : forall l m p, words (wr m p l) p l.
Proof.
  induction l as [|v l IH]; intros m p; cbn [wr words]; auto. split; auto. rewrite wr_other by lia. apply upd_same.
Qed.
Lemma wr_dom : forall l m p a, m a <> None -> wr m p l a <> None.
Proof. induction l as [|v l IH]; intros m p a H; cbn [wr]; auto. apply IH, upd_dom, H. Qed.
Lemma wr_app : forall l1 l2 m p, wr m p (l1 ++ l2) = wr (wr m p l1) (p + 8 * zlen l1) l2.
Proof. induction l1 as [|v l1 IH]; intros l2 m p; cbn [wr app]; [f_equal; rewrite zlen_nil; lia|]. rewrite IH. f_equal. rewrite zlen_cons. lia. Qed.
Definition okw (m : mem) (p n : Z) : Prop := forall k, 0 <= k < n -> m (p + 8 * k) <> None.
Lemma len_loop_wr : forall l m p, okw m p (zlen l) -> len_loop l m p = Ok (wr m p l).
Proof.
  induction l as [|v l IH]; intros m p H; cbn [len_loop wr]; auto. rewrite zlen_cons in H. pose proof (zlen_nonneg _ l). rewrite put_chain by (specialize (H 0); rewrite Z.mul_0_r, Z.add_0_r in H; apply H; lia). rewrite bind_ok. apply IH. intros k K. apply upd_dom. specialize (H (k + 1)). replace (p + 8 + 8 * k) with (p + 8 * (k + 1)) by lia. apply H. lia.
Qed.
Fixpoint count_up (c : nat) (n d : Z) : list Z := match c with O => [] | S c => n :: count_up c (n + d) d end.
Lemma count_up_len : forall c n d, zlen (count_up c n d) = Z.of_nat c.
Proof. induction c; intros n d; cbn [count_up]; [reflexivity|]. rewrite zlen_cons, IHc. lia. Qed.
Lemma count_up_in : forall c n d x, In x (count_up c n d) <-> exists i, 0 <= i < Z.of_nat c /\ x = n + i * d.
Proof.
  induction c as [|c IH]; intros n d x; cbn [count_up In]; [split; [intros []|intros (i & I & _); lia]|]. rewrite IH. split.
  - intros [<-|(i & I & ->)]; [exists 0; lia|exists (i + 1); split; lia].
  - intros (i & I & ->). destruct (Z.eq_dec i 0) as [->|]; [left; lia|right; exists (i - 1); split; lia].
Qed.
Lemma ptr_loop_wr : forall c m p n, okw m p (Z.of_nat c) -> ptr_loop c m p n = Ok (wr m p (count_up c (n * 8) 8), p + 8 * Z.of_nat c).
Proof.
  induction c as [|c IH]; intros m p n H; cbn [ptr_loop count_up wr]; [do 2 f_equal; lia|]. rewrite put_chain by (specialize (H 0); rewrite Z.mul_0_r, Z.add_0_r in H; apply H; lia). rewrite bind_ok. rewrite IH; [|intros k K; apply upd_dom; replace (p + 8 + 8 * k) with (p + 8 * (k + 1)) by lia; apply H; lia].
  replace ((n + 1) * 8) with (n * 8 + 8) by lia. do 2 f_equal. lia.
Qed.
Lemma elem_loop_wr : forall r l m typ off p i, words m (typ + 8 * i) r -> okw m p (zlen r) -> (forall k k', 0 <= k < zlen r -> 0 <= k' < zlen r -> p + 8 * k <> typ + 8 * (i + k')) -> l = map (fun o => off + o) r ->
  elem_loop (length r) m typ off p i = Ok (wr m p l, p + 8 * zlen r).
Proof.
  induction r as [|o r IH]; intros l m typ off p i W H D ->; cbn [elem_loop length map wr]; [rewrite zlen_nil; do 2 f_equal; lia|]. cbn [words] in W. destruct W as [W1 W2]. pose proof (zlen_nonneg _ r) as Lr. rewrite zlen_cons in *.
  rewrite (get_ok _ _ _ W1), bind_ok. rewrite put_chain by (specialize (H 0); rewrite Z.mul_0_r, Z.add_0_r in H; apply H; lia). rewrite bind_ok. rewrite (IH (map (fun o => off + o) r)); auto.
  - do 2 f_equal. lia.
  - replace (typ + 8 * (i + 1)) with (typ + 8 * i + 8) by lia. apply (words_frame m); auto. intros k K. apply upd_other. specialize (D 0 (k + 1)). lia.
  - intros k K. apply upd_dom. replace (p + 8 + 8 * k) with (p + 8 * (k + 1)) by lia. apply H. lia.
  - intros k k' K K'. specialize (D (k + 1) (k' + 1)). lia.
Qed.
Lemma zlen_mapa : forall (f : Z -> Z) l, zlen (map f l) = zlen l.
Proof. intros. unfold zlen. rewrite map_length. auto. Qed.
Definition elem_ofs (c : nat) (off elemsz : Z) (ofs : list Z) : list Z := flat_map (fun b => map (fun o => b + o) ofs) (count_up c off elemsz).
Lemma elem_ofs_len : forall c off elemsz ofs, zlen (elem_ofs c off elemsz ofs) = Z.of_nat c * zlen ofs.
Proof. unfold elem_ofs. induction c; intros off elemsz ofs; cbn [count_up flat_map]; [reflexivity|]. rewrite zlen_app, IHc. unfold zlen. rewrite map_length. lia. Qed.
Lemma rec_loop_wr : forall c m typ elemsz off p ofs, words m typ ofs -> okw m p (Z.of_nat c * zlen ofs) -> (forall k k', 0 <= k < Z.of_nat c * zlen ofs -> 0 <= k' < zlen ofs -> p + 8 * k <> typ + 8 * k') ->
  rec_loop c m typ (zlen ofs) elemsz off p = Ok (wr m p (elem_ofs c off elemsz ofs), p + 8 * (Z.of_nat c * zlen ofs)).
Proof.
  induction c as [|c IH]; intros m typ elemsz off p ofs W H D; cbn [rec_loop]; [unfold elem_ofs; cbn [count_up flat_map wr]; do 2 f_equal; lia|].
  assert (Sp : Z.of_nat (S c) * zlen ofs = zlen ofs + Z.of_nat c * zlen ofs) by lia. rewrite Sp in *. pose proof (zlen_nonneg _ ofs) as Lo. assert (Pc : 0 <= Z.of_nat c * zlen ofs) by nia.
  unfold zlen at 1. rewrite Nat2Z.id. rewrite (elem_loop_wr ofs (map (fun o => off + o) ofs)); auto; [|rewrite Z.mul_0_r, Z.add_0_r; auto|intros k K; apply H; lia|intros k k' K K'; rewrite Z.add_0_l; apply D; lia].
  rewrite bind_ok. rewrite IH.
  - unfold elem_ofs. cbn [count_up flat_map]. rewrite wr_app, zlen_mapa. do 2 f_equal. lia.
  - apply (words_frame m); auto. intros k' K'. apply wr_other. intros k K. rewrite zlen_mapa in K. apply not_eq_sym. apply D; lia.
  - intros k K. apply wr_dom. replace (p + 8 * zlen ofs + 8 * k) with (p + 8 * (zlen ofs + k)) by lia. apply H. lia.
  - intros k k' K K'. replace (p + 8 * zlen ofs + 8 * k) with (p + 8 * (zlen ofs + k)) by lia. apply D; lia.
Qed.
Lemma count_ptrs_spec : forall r m typ i fuel, (forall o, In o r -> 0 <= o) -> words m (typ + 8 * i) (r ++ [- 8 * (i + zlen r + 1)]) -> 0 <= i -> (length r < fuel)%nat -> count_ptrs fuel m typ i = Ok (i + zlen r).
Proof.
  induction r as [|o r IH]; intros m typ i fuel P W I F; destruct fuel as [|f]; try (cbn [length] in F; lia); cbn [app words count_ptrs] in *; destruct W as [W1 W2]; rewrite (get_ok _ _ _ W1), bind_ok.
  - rewrite zlen_nil in *. replace (0 <=? -8 * (i + 0 + 1)) with false by lia. f_equal. lia.
  - replace (0 <=? o) with true by (specialize (P o (or_introl eq_refl)); lia). rewrite zlen_cons in *. rewrite IH; [f_equal; lia|intros x X; apply P; right; auto| |lia|cbn [length] in F; lia].
    replace (typ + 8 * (i + 1)) with (typ + 8 * i + 8) by lia. replace (i + 1 + zlen r + 1) with (i + (1 + zlen r) + 1) by lia. auto.
Qed.

(** * The local variable that serves as a tag *)
Lemma reach_ext : forall g g' q x, (forall y, flds g' y = flds g y) -> reach g q x -> reach g' q x.
Proof. intros g g' q x H R. induction R as [|x o y R IH I N]; [apply reach_root; auto|]. apply (reach_step _ _ x o); auto. rewrite H. auto. Qed.
Lemma chunk_le : forall L lo c, placed lo L -> In c L -> ca c + 24 <= ce c.
Proof. induction L as [|d L IH]; intros lo c P C; [destruct C|]. cbn [placed] in P. destruct P as (_ & _ & _ & T & P). destruct C as [<-|C]; [apply (tiles_le _ _ _ T)|apply (IH _ _ P C)]. Qed.
Lemma slot_put : forall s L ls sl v, hinv s L ls -> hm s sl <> None -> ~ inside L sl -> (forall b k, In b (blocks L) -> 0 <= k <= zlen (bofs b) + 1 -> btag b + 8 * k <> sl) ->
  hinv (setmem (upd (hm s) sl v) s) L ls /\ (forall y, flds (graph_of (upd (hm s) sl v) L) y = flds (graph_of (hm s) L) y).
Proof.
  intros s L ls sl v HI Ms Ns Nt. pose proof (hi_ok _ _ _ HI) as OK. pose proof (ho_placed _ _ _ _ OK) as P.
  assert (IN : forall a, inside L a -> upd (hm s) sl v a = hm s a) by (intros a A; apply upd_other; intros ->; auto).
  assert (BL : forall b a, In b (blocks L) -> ba b <= a < ba b + bsz b -> upd (hm s) sl v a = hm s a) by (intros b a B A; apply IN; apply (block_in L 1 b); auto).
  assert (FV : forall b o, In b (blocks L) -> In o (bofs b) -> val (upd (hm s) sl v) (ptr b + o) = val (hm s) (ptr b + o)) by (intros b o B O; unfold val; rewrite (BL b); auto; pose proof (fld_loc _ _ _ _ OK b o B O); lia).
  split.
  - assert (LK : forall x, free ls x -> upd (hm s) sl v (x + 24) = hm s (x + 24)).
    { intros x X. destruct (free_blk _ _ _ HI x X) as (d & D1 & D2 & _). destruct (blk_al _ _ _ HI d D1) as (_ & _ & S32). apply (BL d); auto. lia. }
    destruct HI as [_ [L1 L2 L3 L4] H3 H4 H5 H6 H7 H8 H9 H10]. constructor; auto.
    + constructor; auto; cbn [setmem hm heap].
      * apply (chained_frame (hm s)); [|apply (ho_chain _ _ _ _ OK)]. intros c x C X. apply IN. exists c. split; auto. pose proof (chunk_le _ _ _ P C). lia.
      * intros x X Kx. apply upd_dom. apply (ho_map _ _ _ _ OK); auto.
      * apply (ho_wf _ _ _ _ OK).
      * intros d D. apply (words_frame (hm s)); [|apply (ho_tab _ _ _ _ OK d D)]. rewrite table_len. intros k K. apply upd_other. apply Nt; auto. lia.
      * intros d D. pose proof (bsz_pos _ _ _ P D). rewrite (BL d) by (auto; lia). apply (ho_head _ _ _ _ OK d D).
      * intros d o D O. rewrite FV by auto. apply (ho_fld _ _ _ _ OK d o D O).
    + constructor; auto; cbn [setmem hm fl big].
      * intros i I. apply (linked_frame (hm s)); auto. intros x X. apply LK. exists i. split; auto. lia.
      * apply (linked_frame (hm s)); auto. intros x X. apply LK. exists 9. split; auto. lia.
    + cbn [setmem hm]. intros d o D O. rewrite FV by auto. apply (H6 d o D O).
  - intro y. cbn [graph_of flds]. unfold blk_at. destruct (find (fun b => ptr b =? y) (blocks L)) as [b|] eqn:E; auto. apply find_some in E. destruct E as [E1 E2]. apply map_ext_in. intros o O. replace y with (ptr b) by lia. rewrite FV; auto.
Qed.

Section NEWBLK.
Variables (s : hst) (L : list chunk) (ls : Z -> list Z) (os : oracle) (push : list (Z * Z) -> list (Z * Z)) (roots ws : list Z) (fs : list finnode) (calls : list (Z * Z)) (sl : Z).
Hypothesis HI : hinv s L ls.
Hypothesis Ho : honest os.
Hypothesis VR : Forall (fun q => q = 0 \/ In q (map ptr (blocks L))) roots.
Hypothesis VF : forall n, In n fs -> In (fobj n) (map ptr (blocks L)).
Hypothesis Ms : hm s sl <> None.
Hypothesis Ns : ~ inside L sl.
Hypothesis Nt : forall b k, In b (blocks L) -> 0 <= k <= zlen (bofs b) + 1 -> btag b + 8 * k <> sl.
Definition slot (v : Z) : hst := setmem (upd (hm s) sl v) s.
Definition nb4 (m : mem) (x bs : Z) : mem := upd (upd (upd (upd m (x + bs - 32) 0) (x + bs - 24) bs) (x + bs - 16) (-8)) (x - 8) (x + bs - 24).
Lemma blk_size : forall size, 0 <= size -> exists k, 1 <= k /\ (size + (4 * 8 + 32 - 1)) / 32 * 32 = 32 * k /\ size + 32 <= 32 * k.
Proof. clear. intros size H. exists ((size + (4 * 8 + 32 - 1)) / 32). lia. Qed.
Lemma NEWBLK_raw : forall size bs, 0 <= size -> bs = (size + (4 * 8 + 32 - 1)) / 32 * 32 ->
  exists N x s' fs' calls', (exists t m sz, bs <= sz /\ os t m sz = None) \/
    (x <> 0 /\ raw (alive s L roots ws fs) (slot bs) L ls s' x bs /\ (forall fuel, (N <= fuel)%nat -> NEWBLK fuel os push roots ws sl size s fs calls = Ok (x, setmem (nb4 (hm s') x bs) s', fs', calls'))).
Proof.
  intros size bs Hs Eb. destruct (blk_size size Hs) as (k & K1 & K2 & K3). rewrite <- Eb in K2. destruct (slot_put s L ls sl bs HI Ms Ns Nt) as [HI1 FL].
  destruct (NEWREC_raw (slot bs) L ls os push roots ws fs calls sl bs HI1 Ho ltac:(apply upd_same) Ns ltac:(exists k; auto) VR VF) as (N & x & s' & fs' & calls' & A & C). exists N, x, s', fs', calls'.
  destruct C as [(_ & C)|(Nx & R)]; [left; auto|right]. split; auto.
  assert (R' : raw (alive s L roots ws fs) (slot bs) L ls s' x bs).
  { destruct R as [R1 R2 R3 R4 R5 R6]. constructor; auto. intros nb m3 A1 A2 A3 A4 A5 A6 A7 A8. destruct (R6 nb m3 A1 A2 A3 A4 A5 A6 A7 A8) as (L' & ls' & Ev & B1 & B2 & B3).
    assert (AL : forall b, alive s L roots ws fs b -> alive (slot bs) L roots ws fs b) by (intros b (q & Q & Rq); exists q; split; auto; apply (reach_ext (graph_of (hm s) L)); auto).
    exists L', ls'. split; [apply (evolves_weaken _ _ _ _ _ _ _ _ AL Ev)|]. split; auto. }
  split; auto. intros fuel F. unfold NEWBLK. rewrite <- Eb. rewrite put_chain by auto. rewrite bind_ok. fold (slot bs). rewrite A by auto. rewrite bind_ok. cbv iota beta zeta.
  destruct R as [(q & R1) R2 R3 R4 R5 R6]. assert (D : forall a, x <= a < x - 8 + bs -> (exists j, a = 8 * j) -> hm s' a <> None) by (intros a Q1 Q2; rewrite (R3 a Q1 Q2); discriminate).
  replace (x + bs - 3 * 8 - 8) with (x + bs - 32) by lia. replace (x + bs - 3 * 8 + 8) with (x + bs - 16) by lia. change (3 * 8) with 24.
  rewrite put_chain by (apply D; [lia|exists (2 * q + 4 * k - 4); lia]). rewrite bind_ok. rewrite put_chain by (repeat apply upd_dom; apply D; [lia|exists (2 * q + 4 * k - 3); lia]). rewrite bind_ok. rewrite put_chain by (repeat apply upd_dom; apply D; [lia|exists (2 * q + 4 * k - 2); lia]). rewrite bind_ok. rewrite put_chain by (repeat apply upd_dom; auto). rewrite bind_ok. reflexivity.
Qed.

(** The finished array. *)
Record made_array (s1 : hst) (x D bs : Z) (ofs lens : list Z) (s3 : hst) : Prop := {
  ma_blk : exists L' ls' b, evolves (alive s L roots ws fs) s1 L ls s3 L' ls' /\ ba b = x - 8 /\ bsz b = bs /\ bofs b = ofs /\ In b (blocks L') /\ ~ free ls' (ba b) /\ btag b = x + bs - 24 - 8 * zlen ofs /\
             (forall d, In d (blocks L) -> ~ free ls (ba d) -> alive s L roots ws fs d -> ba d + bsz d <= ba b \/ ba b + bsz b <= ba d);
  ma_len : words (hm s3) x lens;
  ma_zero : forall a, x + 8 * zlen lens <= a < x + D -> (exists j, a = 8 * j) -> hm s3 a = Some 0;
  ma_fit : D + 8 * zlen ofs + 32 <= bs
}.
Lemma finish_array : forall s1 s' x bs D ofs lens (m5 : mem), raw (alive s L roots ws fs) s1 L ls s' x bs -> (exists k, bs = 32 * k) -> 8 * zlen lens <= D -> D + 8 * zlen ofs + 32 <= bs -> NoDup ofs ->
  (forall o, In o ofs -> 8 * zlen lens <= o /\ o + 8 <= D /\ exists k, o = 8 * k) ->
  (forall a, ~ (x - 8 <= a < x - 8 + bs) -> m5 a = hm s' a) -> (forall a, hm s' a <> None -> m5 a <> None) -> words m5 (x + bs - 24 - 8 * zlen ofs) (bs :: ofs ++ [- 8 * (zlen ofs + 1)]) -> m5 (x - 8) = Some (x + bs - 24 - 8 * zlen ofs) ->
  (forall a, x <= a < x + D -> (exists j, a = 8 * j) -> m5 a = Some 0) ->
  len_loop lens m5 x = Ok (wr m5 x lens) /\ made_array s1 x D bs ofs lens (setmem (wr m5 x lens) s').
Proof. clear HI Ho VR VF Ms Ns Nt os push calls sl.
  intros s1 s' x bs D ofs lens m5 R (bk & Bk) HL HD ND HO F1 F2 F3 F4 F5. pose proof (rw_al _ _ _ _ _ _ _ R) as (q & Q). pose proof (zlen_nonneg _ ofs) as Lo. pose proof (zlen_nonneg _ lens) as Ll.
  assert (W : forall a, ~ (x <= a < x + 8 * zlen lens) -> wr m5 x lens a = m5 a) by (intros a A; apply wr_other; intros k K E; apply A; lia).
  split.
  - apply len_loop_wr. intros k K. rewrite F5; [discriminate|lia|exists (2 * q + k); lia].
  - set (tag := x + bs - 24 - 8 * zlen ofs) in *.
    destruct (rw_fin _ _ _ _ _ _ _ R {| ba := x - 8; bsz := bs; btag := tag; bofs := ofs |} (wr m5 x lens)) as (L' & ls' & Ev & B1 & B2 & B3); cbn [ba bsz btag bofs]; auto.
    + intros a A. rewrite W; auto. lia.
    + intros a A. apply wr_dom. auto.
    + constructor; cbn [ba bsz btag bofs]; unfold ptr; cbn [ba]; auto.
      * replace tag with (2 * (8 * q + 16 * bk - 12 - 4 * zlen ofs)) by (unfold tag; lia). rewrite Z.odd_mul. reflexivity.
      * intros o O. destruct (HO o O) as (O1 & O2 & O3). split; [lia|]. split; auto. lia.
      * split; [unfold tag; lia|]. split; [unfold tag; lia|]. intros o O. destruct (HO o O) as (O1 & O2 & O3). unfold tag. lia.
    + unfold table. cbn [bsz bofs]. apply (words_frame m5); auto. intros k K. apply W. rewrite zlen_cons, zlen_app, zlen_cons, zlen_nil in K. unfold tag. lia.
    + rewrite W by lia. auto.
    + intros o O. unfold ptr. cbn [ba]. destruct (HO o O) as (O1 & O2 & (k & O3)). rewrite W by lia. apply F5; [lia|exists (2 * q + k); lia].
    + constructor; auto.
      * exists L', ls', {| ba := x - 8; bsz := bs; btag := tag; bofs := ofs |}. cbn [ba bsz btag bofs]. conjs; auto.
      * cbn [setmem hm]. apply wr_words.
      * intros a A K. cbn [setmem hm]. rewrite W by lia. apply F5; auto. lia.
Qed.
(** The memory after NEWBLK, and after a pointer table has been put in front of the descriptor. *)
Lemma nb4_facts : forall s1 s' x bs, raw (alive s L roots ws fs) s1 L ls s' x bs -> (exists k, 1 <= k /\ bs = 32 * k) ->
  (forall a, ~ (x - 8 <= a < x - 8 + bs) -> nb4 (hm s') x bs a = hm s' a) /\ (forall a, hm s' a <> None -> nb4 (hm s') x bs a <> None) /\ words (nb4 (hm s') x bs) (x + bs - 24) [bs; -8] /\ nb4 (hm s') x bs (x - 8) = Some (x + bs - 24) /\
  (forall a, x <= a < x + bs - 24 -> (exists j, a = 8 * j) -> nb4 (hm s') x bs a = Some 0).
Proof. clear HI Ho VR VF Ms Ns Nt os push calls sl.
  intros s1 s' x bs R (k & K1 & K2). unfold nb4. split; [|split; [|split; [|split]]].
  - intros a A. rewrite !upd_other by lia. auto.
  - intros a A. repeat apply upd_dom. auto.
  - cbn [words]. replace (x + bs - 24 + 8) with (x + bs - 16) by lia. split; [|split; auto]; [rewrite !upd_other by lia; apply upd_same|rewrite upd_other by lia; apply upd_same].
  - apply upd_same.
  - intros a A Ka. destruct (Z.eq_dec a (x + bs - 32)) as [->|]; [rewrite !upd_other by lia; apply upd_same|]. rewrite !upd_other by lia. apply (rw_zero _ _ _ _ _ _ _ R); auto. lia.
Qed.
Definition tabled (m4 : mem) (x bs : Z) (ofs : list Z) : mem :=
  upd (wr (upd m4 (x + bs - 24 - 8 * zlen ofs) bs) (x + bs - 24 - 8 * (zlen ofs - 1)) (ofs ++ [- (zlen ofs + 1) * 8])) (x - 8) (x + bs - 24 - zlen ofs * 8).
Lemma tabled_facts : forall s1 s' x bs ofs D, raw (alive s L roots ws fs) s1 L ls s' x bs -> (exists k, 1 <= k /\ bs = 32 * k) -> 0 <= D -> D + 8 * zlen ofs + 32 <= bs -> let m5 := tabled (nb4 (hm s') x bs) x bs ofs in
  (forall a, ~ (x - 8 <= a < x - 8 + bs) -> m5 a = hm s' a) /\ (forall a, hm s' a <> None -> m5 a <> None) /\ words m5 (x + bs - 24 - 8 * zlen ofs) (bs :: ofs ++ [- 8 * (zlen ofs + 1)]) /\ m5 (x - 8) = Some (x + bs - 24 - 8 * zlen ofs) /\
  (forall a, x <= a < x + D -> (exists j, a = 8 * j) -> m5 a = Some 0).
Proof. clear HI Ho VR VF Ms Ns Nt os push calls sl.
  intros s1 s' x bs ofs D R Hb HD Fit m5. destruct (nb4_facts s1 s' x bs R Hb) as (A1 & A2 & A3 & A4 & A5). destruct Hb as (k & K1 & K2). pose proof (zlen_nonneg _ ofs) as Lo.
  assert (LW : zlen (ofs ++ [- (zlen ofs + 1) * 8]) = zlen ofs + 1) by (rewrite zlen_app, zlen_cons, zlen_nil; lia).
  assert (W : forall a, a <> x - 8 -> ~ (x + bs - 24 - 8 * zlen ofs <= a <= x + bs - 16) -> m5 a = nb4 (hm s') x bs a).
  { intros a N1 N2. unfold m5, tabled. rewrite upd_other by auto. rewrite wr_other; [apply upd_other; lia|]. rewrite LW. intros i I. lia. }
  split; [|split; [|split; [|split]]].
  - intros a A. rewrite W by lia. auto.
  - intros a A. unfold m5, tabled. apply upd_dom, wr_dom, upd_dom. auto.
  - cbn [words]. replace (x + bs - 24 - 8 * zlen ofs + 8) with (x + bs - 24 - 8 * (zlen ofs - 1)) by lia. split.
    + unfold m5, tabled. rewrite upd_other by lia. rewrite wr_other; [apply upd_same|]. intros i I. lia.
    + replace (- 8 * (zlen ofs + 1)) with (- (zlen ofs + 1) * 8) by lia. apply (words_frame (wr (upd (nb4 (hm s') x bs) (x + bs - 24 - 8 * zlen ofs) bs) (x + bs - 24 - 8 * (zlen ofs - 1)) (ofs ++ [- (zlen ofs + 1) * 8]))); [|apply wr_words].
      rewrite LW. intros i I. unfold m5, tabled. apply upd_other. lia.
  - unfold m5, tabled. rewrite upd_same. f_equal. lia.
  - intros a A Ka. rewrite W by lia. apply A5; auto. lia.
Qed.
End NEWBLK.
Lemma count_elems_spec : forall dims n, Forall (fun d => 0 < d) dims -> 0 < n -> n * fold_right Z.mul 1 dims < 2 ^ 63 -> count_elems dims n = Ok (n * fold_right Z.mul 1 dims).
Proof.
  induction dims as [|d dims IH]; intros n F N B; cbn [count_elems fold_right] in *; [f_equal; lia|]. inversion F; subst.
  assert (P : 1 <= fold_right Z.mul 1 dims) by (clear - H2; induction H2; cbn [fold_right]; nia).
  assert (n * d <= n * (d * fold_right Z.mul 1 dims)) by nia. assert (0 < n * d) by nia.
  unfold chk. replace (in_intb 64 (n * d)) with true by (symmetry; apply in_intb_iff; unfold in_int; change (64 - 1) with 63; lia). rewrite bind_ok. replace (n * d <=? 0) with false by lia. rewrite IH; auto; [f_equal; lia|lia].
Qed.
