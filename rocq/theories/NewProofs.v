From Verif Require Import Base ArrZ HeapModel HeapSpec MarkProofs LayProofs SortProofs ScanProofs AllocProofs CarveProofs ExtendProofs GCProofs.

Lemma tdesc_move : forall m L m' L' tag bs ofs, (forall a, m a <> None -> ~ inside L a -> m' a = m a /\ ~ inside L' a) -> tdesc m L tag bs ofs -> tdesc m' L' tag bs ofs.
Proof.
  intros m L m' L' tag bs ofs E [T1 T2 T3 T4 T5 T6].
  assert (Ln : zlen (bs :: ofs ++ [-8 * (zlen ofs + 1)]) = zlen ofs + 2) by (unfold zlen; cbn [length]; rewrite app_length; cbn [length]; lia).
  assert (Mp : forall k, 0 <= k <= zlen ofs + 1 -> m (tag + 8 * k) <> None).
  { intros k K. assert (Hk : 0 <= k < zlen (bs :: ofs ++ [-8 * (zlen ofs + 1)])) by lia. clear - T1 Hk. revert T1 Hk. generalize (bs :: ofs ++ [-8 * (zlen ofs + 1)]) as ws. intro ws. revert tag k. induction ws as [|w ws IH]; intros a k T I; [rewrite zlen_nil in I; lia|]. rewrite zlen_cons in I. cbn [words] in T. destruct T as [T1 T2].
    destruct (Z.eq_dec k 0) as [->|]; [replace (a + 8 * 0) with a by lia; congruence|]. replace (a + 8 * k) with (a + 8 + 8 * (k - 1)) by lia. apply IH; auto. lia. }
  constructor; auto.
  - apply (words_frame m); auto. rewrite Ln. intros k K. apply E; [apply Mp; lia|apply T3; lia].
  - intros k K. apply E; [apply Mp; auto|apply T3; auto].
Qed.

Lemma evolves_refl : forall K s L ls, hinv s L ls -> evolves K s L ls s L ls.
Proof. intros K s L ls HI. constructor; auto. Qed.
Lemma evolves_trans : forall K s1 L1 l1 s2 L2 l2 s3 L3 l3, evolves K s1 L1 l1 s2 L2 l2 -> evolves K s2 L2 l2 s3 L3 l3 -> evolves K s1 L1 l1 s3 L3 l3.
Proof.
  intros K s1 L1 l1 s2 L2 l2 s3 L3 l3 [A1 A2 A3] [B1 B2 B3]. constructor; auto.
  - intros b I N k. destruct (A2 b I N k) as (I2 & N2 & E2). destruct (B2 b I2 N2 k) as (I3 & N3 & E3). split; auto. split; auto. intros a A Ka. rewrite E3, E2; auto.
  - intros a A N. destruct (A3 a A N) as [E N2]. rewrite <- E in A. destruct (B3 a A N2). split; auto. congruence.
Qed.
Lemma evolves_weaken : forall (K K' : blk -> Prop) s L ls s' L' ls', (forall b, K' b -> K b) -> evolves K s L ls s' L' ls' -> evolves K' s L ls s' L' ls'.
Proof. intros K K' s L ls s' L' ls' H [A B C]. constructor; auto. Qed.
Lemma evolves_all : forall (K : blk -> Prop) s L ls s' L' ls', evolves (fun _ => True) s L ls s' L' ls' -> evolves K s L ls s' L' ls'.
Proof. intros K s L ls s' L' ls' [A B C]. constructor; auto. Qed.
Lemma attempt : forall s L ls tag bs ofs, hinv s L ls -> tdesc (hm s) L tag bs ofs ->
  exists N new s', (forall fuel, (N <= fuel)%nat -> try_alloc fuel tag s = Ok (new, s')) /\
    ((new = 0 /\ s' = s /\ forall b, In b (blocks L) -> In (ba b) (ls 9) -> bsz b < bs) \/
     (new <> 0 /\ exists L' ls', evolves (fun _ => True) s L ls s' L' ls' /\ fresh (fun _ => True) L ls s' L' ls' (recb new bs tag ofs))).
Proof.
  intros s L ls tag bs ofs HI TD. pose proof TD as [T1 T2 T3 T4 T5 (k & K1 & K2)]. pose proof (ho_placed _ _ _ _ (hi_ok _ _ _ HI)) as P.
  assert (Hb : hm s tag = Some (32 * k)) by (cbn [words] in T1; rewrite <- K2; apply T1).
  destruct (try_alloc_spec s L ls HI tag k Hb K1) as (N & [(A & B & C)|(s' & ls1 & b & j & A & B & F & J & Sz & CV)]).
  - exists N, 0, s. split; auto. left. split; auto. split; auto. intros b B1 B2. specialize (C b B1 B2). lia.
  - set (new := ba b + 32 * j + 8) in *. exists N, new, s'. split; auto. right. destruct (blk_al _ _ _ HI b B) as ((bk & Al) & Po & _). split; [lia|].
    set (nb := recb new bs tag ofs). pose proof (cv_take _ _ _ _ _ _ _ _ CV) as T. destruct (cv_same _ _ _ _ _ _ _ _ CV) as (S1 & S2 & S3 & S4 & S5 & S6).
    assert (OUT : forall a, ~ inside L a -> hm s' a = hm s a).
    { intros a Na. apply (out_same s L ls HI s' ls1 b j); auto. intros d D Q. apply Na. apply (block_in L 1 d); auto. }
    assert (NB1 : ba nb = ba b + 32 * j) by (unfold nb, recb, new; cbn [ba]; lia).
    assert (NB2 : bsz nb = 32 * k) by exact K2.
    assert (Z0 : forall a, ba nb < a < ba nb + bsz nb -> (exists j, a = 8 * j) -> hm s' a = Some 0) by (intros a Q Ka; apply (cv_zero _ _ _ _ _ _ _ _ CV); auto; lia).
    assert (HI' : hinv s' (recut L b (cut b (32 * j) nb)) ls1).
    { apply (carve_hinv s L ls HI s' ls1 b j k nb); auto.
      - constructor; auto; cbn [nb recb btag bofs]; auto.
        intros o O. destruct (T5 o O) as (Q1 & Q2 & Q3). split; auto. split; auto. unfold ptr. cbn [nb recb ba bsz]. lia.
      - unfold table. cbn [nb recb btag bofs bsz]. apply (words_frame (hm s)); auto. intros i I. apply OUT. apply T3. unfold zlen in *. cbn [length] in I. rewrite app_length in I. cbn [length] in I. lia.
      - rewrite NB1. apply (cv_tag _ _ _ _ _ _ _ _ CV).
      - intros o O. destruct (T5 o O) as (Q1 & Q2 & (i & Q3)). apply Z0; [unfold ptr; lia|]. exists (bk + 4 * j + 1 + i). unfold ptr. lia. }
    exists (recut L b (cut b (32 * j) nb)), ls1. split; constructor; auto.
    + intros d D Nf _. assert (Nb : ba d <> ba b) by (intro E; apply Nf; rewrite E; auto). split; [apply (recut_in L b j nb); auto|]. split.
      * intros (i & I & Q). destruct (tk_in _ _ _ _ _ _ _ _ T i _ I Q) as [(Q1 & Q2)|(Q1 & Q2)]; auto. apply Nf. exists i. auto.
      * intros a Q _. apply (live_same s L ls HI s' ls1 b j B F T d); auto.
    + intros a Q Na. split; auto. intro I. apply Na. apply (recut_inside L b (cut b (32 * j) nb)). auto.
    + apply (recut_in L b j nb); auto.
    + intros (i & I & Q). destruct (tk_in _ _ _ _ _ _ _ _ T i _ I Q) as [(Q1 & Q2)|(Q1 & Q2 & _)]; [|lia].
      destruct (hi_fr _ _ _ HI i _ I Q1) as (d & D1 & D2 & _). pose proof (bsz_pos _ _ _ P D1). assert (d = b) by (apply (block_same L 1 _ _ (ba d) P); auto; lia). subst d. lia.
    + intros d D Nf _. assert (Nb : d <> b) by (intro E; apply Nf; subst; auto). pose proof (bsz_pos _ _ _ P D). pose proof (bsz_pos _ _ _ P B). destruct (Z_lt_le_dec (ba nb) (ba d + bsz d)) as [Q1|Q1]; [|left; lia]. destruct (Z_lt_le_dec (ba d) (ba nb + bsz nb)) as [Q2|Q2]; [|right; lia].
      exfalso. apply Nb. apply (block_same L 1 _ _ (Z.max (ba d) (ba nb)) P); auto; lia.
Qed.
Lemma extend_evolves : forall s L ls os ft k, hinv s L ls -> honest os -> 1 <= k ->
  exists N s' L' ls', (forall fuel, (N <= fuel)%nat -> ExtendHeap fuel os ft (32 * k) s = Ok s') /\ evolves (fun _ => True) s L ls s' L' ls' /\
    ((exists t m sz, 32 * k <= sz /\ os t m sz = None) \/ exists b, In b (blocks L') /\ In (ba b) (ls' 9) /\ 32 * k <= bsz b).
Proof.
  intros s L ls os ft k HI Ho K. pose proof (ho_placed _ _ _ _ (hi_ok _ _ _ HI)) as P. destruct (ExtendHeap_spec s L ls os ft k HI Ho K) as (N & s' & L' & ls' & A & B & C). exists N, s', L', ls'. split; auto. destruct C as [(-> & -> & (E1 & _) & sz & S1 & S2)|(c & size & S1 & -> & Bl & Nf & Fr & Ou)].
  - split; [constructor; auto; rewrite ?E1; auto|]. left. exists (tick s), (hm s), (sz + 24). split; auto. lia.
  - split.
    + constructor; auto.
      * intros b Ib Nb _. split; [apply Bl; auto|]. split.
        -- intros (i & I & Q). unfold onbig in Q. destruct (i =? 9) eqn:E; [replace i with 9 in * by lia; destruct Q as [Q|Q]|]; try (apply Nb; exists i; auto; fail).
           ++ apply (Nf b Ib). auto.
           ++ apply Nb. exists 9. auto.
        -- intros a Q Ka. apply Fr; [apply (blk_mapped _ _ _ HI b); auto|]. intros d D ->. destruct (placed_ge _ _ _ P D). apply (header_not_block L 1 d b (ca d) P D Ib); auto. lia.
      * intros a Q Na. split; auto. apply Fr; auto. intros d D ->. apply Na. destruct (placed_ge _ _ _ P D). exists d. split; auto. lia.
    + right. exists (freeb (c + 24) size). cbn [freeb ba bsz]. split; [apply Bl; auto|]. unfold onbig. cbn. auto.
Qed.
Lemma collected_evolves : forall s L ls M s' L' ls', collected s L M s' L' ls' -> evolves (fun b => In (ptr b) M) s L ls s' L' ls'.
Proof.
  intros s L ls M s' L' ls' [C1 C2 C3 C4 C5 C6 C7]. constructor; auto.
  - intros b I _ K. destruct (C2 b I K) as (Q1 & Q2 & Q3). auto.
  - intros a A N. split; auto. rewrite C4. auto.
Qed.
Lemma fresh_trans : forall K s L ls s2 L2 l2 s' L' ls' nb, evolves K s L ls s2 L2 l2 -> fresh (fun _ => True) L2 l2 s' L' ls' nb -> fresh K L ls s' L' ls' nb.
Proof. intros K s L ls s2 L2 l2 s' L' ls' nb [E1 E2 E3] [F1 F2 F3 F4]. constructor; auto. intros b I N k. destruct (E2 b I N k) as (Q1 & Q2 & _). auto. Qed.
Lemma NEWREC_spec : forall s L ls os push roots ws fs calls tag bs ofs, hinv s L ls -> honest os -> tdesc (hm s) L tag bs ofs ->
  Forall (fun q => q = 0 \/ In q (map ptr (blocks L))) roots -> (forall n, In n fs -> In (fobj n) (map ptr (blocks L))) ->
  exists N new s' L' ls' fs' calls', (forall fuel, (N <= fuel)%nat -> NEWREC fuel os push roots ws tag s fs calls = Ok (new, s', fs', calls')) /\
    evolves (alive s L roots ws fs) s L ls s' L' ls' /\
    ((new = 0 /\ exists t m sz, bs <= sz /\ os t m sz = None) \/ (new <> 0 /\ fresh (alive s L roots ws fs) L ls s' L' ls' (recb new bs tag ofs))) /\
    (fs = [] -> fs' = [] /\ calls' = calls).
Proof.
  intros s L ls os push roots ws fs calls tag bs ofs HI Ho TD VR VF. pose proof TD as [T1 _ _ _ _ (k & K1 & K2)].
  assert (Hb : hm s tag = Some bs) by (cbn [words] in T1; apply T1).
  destruct (attempt s L ls tag bs ofs HI TD) as (N1 & new & s1 & A1 & [(-> & -> & _)|(Nn & L1 & ls1 & E1 & F1)]).
  2: { exists N1, new, s1, L1, ls1, fs, calls. split; [|split; [|split]]; auto.
       - intros fuel F. unfold NEWREC. rewrite A1 by auto. rewrite bind_ok. replace (new =? 0) with false by lia. reflexivity.
       - apply evolves_all; exact E1.
       - right. split; auto. apply (fresh_trans _ s L ls s L ls s1 L1 ls1); auto. apply evolves_refl; auto. }
  destruct (GC_spec s L ls push roots ws fs calls HI VR VF) as (N2 & s2 & L2 & ls2 & M & M1 & fs1 & fs2 & calls2 & A2 & C2 & D1 & D2 & D3 & D4 & _ & D6).
  assert (E2 : evolves (alive s L roots ws fs) s L ls s2 L2 ls2).
  { apply (evolves_weaken (fun b => In (ptr b) M)); [|apply collected_evolves; auto]. intros b (q & [Q|(n & Q1 & ->)] & R); apply D2; [left; apply D1; exists q; auto|right; exists n; auto]. }
  pose proof (ev_inv _ _ _ _ _ _ _ E2) as HI2. pose proof (tdesc_move _ _ _ _ _ _ _ (ev_out _ _ _ _ _ _ _ E2) TD) as TD2.
  set (t := Z.shiftr (allocd s2 + (bs + 32)) 7 * (5 * 32)).
  assert (X : exists N3 s3 L3 ls3, (forall fuel, (N3 <= fuel)%nat -> (if hsize s2 <? t then ExtendHeap fuel os true (t - hsize s2) s2 else Ok s2) = Ok s3) /\ evolves (fun _ => True) s2 L2 ls2 s3 L3 ls3).
  { destruct (hsize s2 <? t) eqn:E; [|exists 0%nat, s2, L2, ls2; split; auto; apply evolves_refl; auto]. destruct (hi_size _ _ _ HI2) as (hk & Hk).
    set (q := Z.shiftr (allocd s2 + (bs + 32)) 7) in *. assert (Et : t - hsize s2 = 32 * (5 * q - hk)) by (unfold t; lia).
    destruct (extend_evolves s2 L2 ls2 os true (5 * q - hk) HI2 Ho ltac:(lia)) as (N3 & s3 & L3 & ls3 & A3 & E3 & _). exists N3, s3, L3, ls3. split; auto. rewrite Et. auto. }
  destruct X as (N3 & s3 & L3 & ls3 & A3 & E3). pose proof (ev_inv _ _ _ _ _ _ _ E3) as HI3. pose proof (tdesc_move _ _ _ _ _ _ _ (ev_out _ _ _ _ _ _ _ E3) TD2) as TD3.
  assert (E23 : evolves (alive s L roots ws fs) s L ls s3 L3 ls3) by (eapply evolves_trans; [exact E2|apply evolves_all; exact E3]).
  assert (PRE : forall fuel, (N1 + N2 + N3 <= fuel)%nat -> NEWREC fuel os push roots ws tag s fs calls = (let* (new, s) := try_alloc fuel tag s3 in if negb (new =? 0) then Ok (new, s, fs2, calls2) else let* s := ExtendHeap fuel os false (bs + 32) s in let* (new, s) := try_alloc fuel tag s in Ok (new, s, fs2, calls2))).
  { intros fuel F. unfold NEWREC. rewrite A1 by lia. rewrite bind_ok. cbn [Z.eqb negb]. rewrite (get_ok _ _ _ Hb), bind_ok. rewrite A2 by lia. rewrite bind_ok. cbv iota beta. fold t. rewrite A3 by lia. rewrite bind_ok. reflexivity. }
  assert (Fin : fs = [] -> fs2 = [] /\ calls2 = calls).
  { intros ->. destruct fs1; [|discriminate]. specialize (D6 (S N2) ltac:(lia)). unfold Finalize in D6. cbn in D6. inversion D6. auto. }
  destruct (attempt s3 L3 ls3 tag bs ofs HI3 TD3) as (N4 & new4 & s4 & A4 & [(-> & -> & _)|(Nn & L4 & ls4 & E4 & F4)]).
  2: { exists (N1 + N2 + N3 + N4)%nat, new4, s4, L4, ls4, fs2, calls2. split; [|split; [|split]]; auto.
       - intros fuel F. rewrite PRE by lia. rewrite A4 by lia. rewrite bind_ok. replace (new4 =? 0) with false by lia. reflexivity.
       - eapply evolves_trans; [exact E23|apply evolves_all; exact E4].
       - right. split; auto. apply (fresh_trans _ s L ls s3 L3 ls3); auto. }
  assert (Eb : bs + 32 = 32 * (k + 1)) by lia.
  destruct (extend_evolves s3 L3 ls3 os false (k + 1) HI3 Ho ltac:(lia)) as (N5 & s5 & L5 & ls5 & A5 & E5 & R5). pose proof (ev_inv _ _ _ _ _ _ _ E5) as HI5. pose proof (tdesc_move _ _ _ _ _ _ _ (ev_out _ _ _ _ _ _ _ E5) TD3) as TD5.
  assert (E25 : evolves (alive s L roots ws fs) s L ls s5 L5 ls5) by (eapply evolves_trans; [exact E23|apply evolves_all; exact E5]).
  destruct (attempt s5 L5 ls5 tag bs ofs HI5 TD5) as (N6 & new6 & s6 & A6 & R6).
  assert (Q : forall fuel, (N1 + N2 + N3 + N4 + N5 + N6 <= fuel)%nat -> NEWREC fuel os push roots ws tag s fs calls = Ok (new6, s6, fs2, calls2)).
  { intros fuel F. rewrite PRE by lia. rewrite A4 by lia. rewrite bind_ok. cbn [Z.eqb negb]. rewrite Eb, A5 by lia. rewrite bind_ok. rewrite A6 by lia. rewrite bind_ok. reflexivity. }
  destruct R6 as [(-> & -> & R6)|(Nn & L6 & ls6 & E6 & F6)].
  - exists (N1 + N2 + N3 + N4 + N5 + N6)%nat, 0, s5, L5, ls5, fs2, calls2. split; auto. split; auto. split; auto. left. split; auto. destruct R5 as [(t0 & m0 & sz & Q1 & Q2)|(b & Q1 & Q2 & Q3)]; [exists t0, m0, sz; split; auto; lia|]. specialize (R6 b Q1 Q2). lia.
  - exists (N1 + N2 + N3 + N4 + N5 + N6)%nat, new6, s6, L6, ls6, fs2, calls2. split; auto. split; [eapply evolves_trans; [exact E25|apply evolves_all; exact E6]|]. split; auto. right. split; auto. apply (fresh_trans _ s L ls s5 L5 ls5); auto.
Qed.
Lemma ptr_al16 : forall L b, placed 1 L -> In b (blocks L) -> exists k, ptr b = 16 * k.
Proof.
  intros L b P B. apply in_blocks in B. destruct B as (c & C & B). destruct (placed_ge _ _ _ P C) as (_ & _ & (i & I) & _ & T).
  assert (G : forall bs a e, tiles a bs e -> In b bs -> exists j, ba b = a + 32 * j).
  { induction bs as [|d bs IH]; intros a e H Q; [destruct Q|]. cbn [tiles] in H. destruct H as (H1 & (k & K1 & K2) & H3). destruct Q as [<-|Q]; [exists 0; lia|]. destruct (IH _ _ H3 Q) as (j & J). exists (j + k). lia. }
  destruct (G _ _ _ T B) as (j & J). exists (i + 2 + 2 * j). unfold ptr. lia.
Qed.
