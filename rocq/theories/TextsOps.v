(** Insert, Append, Delete, ChangeLooks, Save, Copy, Write, Read on one text and one buffer (for C32). *)
From Verif Require Import Base TextsModel TextsSpec TextsRing TextsLocal.

Lemma total_rebody : forall files n b0 base m m' X, runs_ok files n b0 m X ->
  (forall a, In a X -> bd m' a = rebody base (bd m a)) ->
  total m' X = total m X /\ content files m' X = content files m X /\ runs_ok files n base m' X.
Proof.
  intros files n b0 base m m'. induction X as [|a X IH]; intros OK H; [split; [reflexivity|]; split; [reflexivity|intros b []]|].
  destruct IH as (I1 & I2 & I3); [intros b B; apply OK; right; auto|intros b B; apply H; right; auto|].
  pose proof (rebody_ok _ _ _ base _ (OK a ltac:(left; auto))) as (R1 & R2 & R3).
  rewrite <- (H a ltac:(left; auto)) in R1, R2, R3.
  cbn [total content flat_map]. unfold lenof. split; [congruence|]. split.
  - rewrite R2. f_equal. exact I2.
  - intros b [<-|B]; auto.
Qed.
Lemma ring_nil : forall m h, nx m h = h -> pv m h = h -> ring m h [].
Proof. intros m h E1 E2. split; [cbn; auto|]. split; [cbn; auto|]. constructor; [intros []|constructor]. Qed.

(** What Insert and Append do after Merge. *)
Lemma splice_core : forall files n m t h hb la lb A X,
  ring m h (la ++ lb) -> runs_ok files n (Some t) m (la ++ lb) ->
  ring m hb (A ++ X) -> runs_ok files n None m X ->
  (forall a, In a (hb :: A ++ X) -> ~ In a (h :: la ++ lb)) -> below m hb (A ++ X) ->
  exists m2, Splice m (hd h lb) (hd hb X) (pv m hb) (Some t) = Ok m2 /\
    let m3 := set_pv (set_nx m2 hb hb) hb hb in
    ring m3 h (la ++ X ++ lb) /\ runs_ok files n (Some t) m3 (la ++ X ++ lb) /\
    ring m3 hb [] /\ nxt m3 = nxt m /\
    content files m3 (la ++ X ++ lb) = content files m la ++ content files m X ++ content files m lb /\
    total m3 (la ++ X ++ lb) = total m la + total m X + total m lb /\
    (forall a, ~ In a X -> bd m3 a = bd m a) /\
    (forall a, ~ In a (h :: la ++ lb) -> ~ In a (hb :: A ++ X) -> nx m3 a = nx m a /\ pv m3 a = pv m a).
Proof.
  intros files n m t h hb la lb A X R1 O1 R2 O2 DJ BL.
  rewrite <- (app_nil_r X) in R2 at 1.
  destruct (Splice_ok m h la lb hb A X [] (Some t) R1 R2) as (m2 & S1 & S2 & S3 & S4 & S5 & S6).
  { rewrite app_nil_r. auto. } { rewrite app_nil_r. auto. }
  rewrite app_nil_r in R2.
  assert (PW : pv m hb = List.last X (List.last A hb)).
  { rewrite <- last_app'. apply (ring_prev m hb (A ++ X) []). rewrite app_nil_r. exact R2. }
  exists m2. rewrite PW. split; [exact S1|]. cbv zeta.
  set (m3 := set_pv (set_nx m2 hb hb) hb hb).
  assert (NH : forall a, In a (h :: la ++ X ++ lb) -> a <> hb).
  { intros a I ->. destruct I as [I|I].
    - apply (DJ hb ltac:(left; auto)). left. auto.
    - apply in_app_iff in I as [I|I]; [apply (DJ hb ltac:(left; auto)); right; apply in_app_iff; auto|].
      apply in_app_iff in I as [I|I]; [|apply (DJ hb ltac:(left; auto)); right; apply in_app_iff; auto].
      destruct R2 as (_ & _ & D). apply NoDup_cons_iff in D as [D _]. apply D. apply in_app_iff. auto. }
  apply runs_app in O1 as [O1 O1'].
  assert (NX1 : forall a, In a la -> ~ In a X).
  { intros a I J. apply (DJ a); [right; apply in_app_iff; auto|right; apply in_app_iff; auto]. }
  assert (NX2 : forall a, In a lb -> ~ In a X).
  { intros a I J. apply (DJ a); [right; apply in_app_iff; auto|right; apply in_app_iff; auto]. }
  assert (BA : forall a, In a la -> bd m3 a = bd m a) by (intros; apply S4; auto).
  assert (BB : forall a, In a lb -> bd m3 a = bd m a) by (intros; apply S4; auto).
  destruct (total_rebody files n None (Some t) m m3 X O2 S5) as (T1 & T2 & T3).
  split.
  { eapply ring_frame; [exact S2|]. intros a I. specialize (NH a I). unfold m3. cbn [nx pv set_nx set_pv].
    rewrite !upd_neq by auto. auto. }
  split.
  { apply runs_app. split; [eapply runs_ext; eauto|]. apply runs_app. split; [auto|eapply runs_ext; eauto]. }
  split.
  { apply ring_nil; unfold m3; cbn [nx pv set_nx set_pv]; apply upd_eq. }
  split; [exact S3|]. split.
  { rewrite !content_app, T2, (content_ext files m m3 la BA), (content_ext files m m3 lb BB). reflexivity. }
  split.
  { rewrite !total_app, T1, (total_ext m m3 la BA), (total_ext m m3 lb BB). lia. }
  split; [exact S4|].
  intros a I J. assert (a <> hb) by (intros ->; apply J; left; auto).
  unfold m3. cbn [nx pv set_nx set_pv]. rewrite !upd_neq by auto. apply S6; auto.
  intros Q. apply J. right. apply in_app_iff. auto.
Qed.

Lemma snoc_cases : forall A (l : list A), l = [] \/ exists l' a, l = l' ++ [a].
Proof. intros A l. destruct l using rev_ind; [auto|right; eauto]. Qed.

Definition disj (a b : list loc) : Prop := forall c, In c a -> ~ In c b.
Lemma insert_core : forall files n m t x B la lb bl,
  Tok files n m t x (la ++ lb) -> cache_in m x la -> Bok files n m B bl ->
  disj (bhead B :: bl) (thead x :: la ++ lb) ->
  exists m1 x1 v1 m2 X,
    Merge m x (List.last la (thead x)) (nx m (bhead B)) = Ok (m1, x1, v1) /\
    Splice m1 (hd (thead x) lb) v1 (pv m1 (bhead B)) (Some t) = Ok m2 /\
    thead x1 = thead x /\ tlen x1 = tlen x /\
    let m3 := set_pv (set_nx m2 (bhead B) (bhead B)) (bhead B) (bhead B) in
    Tok files n m3 t (set_tlen x1 (tlen x + blen B)) (la ++ X ++ lb) /\
    Bok files n m3 {| blen := 0; bhead := bhead B |} [] /\
    content files m3 (la ++ X ++ lb) = content files m la ++ content files m bl ++ content files m lb /\
    nxt m3 = nxt m /\ keeps m m3 ((thead x :: la ++ lb) ++ bhead B :: bl) /\ incl X bl.
Proof.
  intros files n m t x B la lb bl (R1 & H1 & O1 & L1 & B1 & _) CI (R2 & H2 & O2 & L2 & B2) DJ.
  set (h := thead x) in *. set (hb := bhead B) in *.
  assert (NV : nx m hb = hd hb bl) by (apply (ring_next m hb [] bl); exact R2). rewrite NV.
  pose proof R1 as (_ & _ & D1). pose proof R2 as (_ & _ & D2).
  destruct (Merge_ok files n (Some t) None m x (List.last la h) (hd hb bl)) as [M|(M & K1 & K2 & I1 & I2)].
  { pose proof (last_in _ h la) as [Q|Q]; [left; rewrite <- Q, H1; reflexivity|right; apply O1; apply in_app_iff; auto]. }
  { pose proof (in_hd _ hb bl) as [Q|Q]; [left; rewrite <- Q, H2; reflexivity|right; apply O2; auto]. }
  - destruct (splice_core files n m t h hb la lb [] bl R1 O1 R2 O2) as (m2 & S1 & S2 & S3 & S4 & S5 & S6 & S7 & S8 & S9); auto.
    exists m, x, (hd hb bl), m2, bl. split; [exact M|]. split; [exact S1|]. split; [reflexivity|]. split; [reflexivity|].
    cbv zeta. set (m3 := set_pv (set_nx m2 hb hb) hb hb) in *.
    assert (BH : bd m3 h = bd m h).
    { apply S8. intros Q. apply (DJ h); [right; auto|left; auto]. }
    assert (BHB : bd m3 hb = bd m hb).
    { apply S8. apply NoDup_cons_iff in D2 as [D2 _]. auto. }
    split.
    { split; [exact S2|]. split; [cbn [thead set_tlen]; fold h; rewrite BH; exact H1|]. split; [exact S3|]. split.
      { cbn [tlen set_tlen]. rewrite S7, L1, L2, total_app. lia. }
      split.
      { intros a I. cbn [thead set_tlen] in I. fold h in I. rewrite S5. destruct I as [I|I]; [apply B1; left; auto|].
        apply in_app_iff in I as [I|I]; [apply B1; right; apply in_app_iff; auto|].
        apply in_app_iff in I as [I|I]; [apply B2; right; auto|apply B1; right; apply in_app_iff; auto]. }
      assert (CI' : cache_in m3 x la).
      { eapply cache_ext; [exact CI|]. intros a I. apply S8. intros Q. apply (DJ a); [right; auto|right; apply in_app_iff; auto]. }
      destruct CI' as (l1 & l2 & C0 & C1 & C2). exists l1, (l2 ++ bl ++ lb). rewrite C0, <- !app_assoc. auto. }
    split.
    { split; [exact S4|]. split; [cbn [bhead]; rewrite BHB; exact H2|]. split; [intros a []|]. split; [reflexivity|].
      intros a [<-|[]]. rewrite S5. apply B2. left. auto. }
    split; [exact S6|]. split; [exact S5|]. split; [|intros a I; auto].
    split; [rewrite S5; lia|]. intros a A N. rewrite in_app_iff in N.
    destruct (S9 a) as [Q1 Q2]; [intros Q; apply N; left; auto|intros Q; apply N; right; exact Q|].
    split; [auto|]. split; [auto|]. apply S8. intros Q. apply N. right. right. auto.
  - destruct bl as [|v0 bl]; [cbn [hd] in K2; rewrite H2 in K2; cbn in K2; congruence|].
    destruct (snoc_cases _ la) as [->|(la0 & u & ->)]; [cbn [List.last] in K1; rewrite H1 in K1; cbn in K1; congruence|].
    rewrite last_app1 in M, I1, I2, K1. cbn [hd] in M, I1, I2, K2. rewrite last_app1. cbn [hd].
    set (m1 := set_bd m u (merged m u v0)) in *. set (x1 := recache m x u v0) in *.
    assert (NV0 : nx m v0 = hd hb bl) by (apply (ring_next m hb [v0] bl); exact R2). rewrite NV0 in M.
    assert (Iu : In u (h :: (la0 ++ [u]) ++ lb)) by (right; apply in_app_iff; left; apply in_app_iff; right; left; auto).
    assert (NUB : ~ In u (hb :: v0 :: bl)) by (intros Q; apply (DJ u Q); exact Iu).
    assert (BO : forall a, a <> u -> bd m1 a = bd m a) by (intros; unfold m1; cbn [bd set_bd]; apply upd_neq; auto).
    assert (BU : bd m1 u = merged m u v0) by (unfold m1; cbn [bd set_bd]; apply upd_eq).
    rewrite <- app_assoc in D1. cbn [app] in D1. apply nodup_mid in D1 as (Du1 & Du2 & Du3 & Du4 & Du5).
    assert (O1' : runs_ok files n (Some t) m1 ((la0 ++ [u]) ++ lb)).
    { intros a I. destruct (Nat.eq_dec a u) as [->|NE]; [rewrite BU; exact I2|rewrite BO by auto; apply O1; auto]. }
    assert (BX : forall a, In a (hb :: v0 :: bl) -> bd m1 a = bd m a) by (intros a I; apply BO; intros ->; auto).
    assert (O2' : runs_ok files n None m1 bl).
    { intros a I. rewrite BX by (right; right; auto). apply O2. right. auto. }
    destruct (splice_core files n m1 t h hb (la0 ++ [u]) lb [v0] bl) as (m2 & S1 & S2 & S3 & S4 & S5 & S6 & S7 & S8 & S9); auto.
    exists m1, x1, (hd hb bl), m2, bl. split; [exact M|]. split; [exact S1|].
    destruct (recache_head m x u v0) as [RH1 RH2]. fold x1 in RH1, RH2. fold h in RH1.
    split; [exact RH1|]. split; [exact RH2|].
    cbv zeta. set (m3 := set_pv (set_nx m2 hb hb) hb hb) in *.
    assert (BH : bd m3 h = bd m h).
    { rewrite S8; [apply BO; auto|]. intros Q. apply (DJ h); [right; right; auto|left; auto]. }
    apply NoDup_cons_iff in D2 as [D2 D2']. apply NoDup_cons_iff in D2' as [D3 D4].
    assert (BHB : bd m3 hb = bd m hb).
    { rewrite S8; [apply BX; left; auto|]. intros Q. apply D2. right. auto. }
    assert (BV : bd m1 v0 = bd m v0) by (apply BX; right; left; auto).
    assert (BLA : forall a, In a la0 -> bd m1 a = bd m a) by (intros a I; apply BO; intros ->; auto).
    assert (BLB : forall a, In a lb -> bd m1 a = bd m a) by (intros a I; apply BO; intros ->; auto).
    assert (BXX : forall a, In a bl -> bd m1 a = bd m a) by (intros a I; apply BX; right; right; auto).
    split.
    { split; [cbn [thead set_tlen]; rewrite RH1; exact S2|]. split; [cbn [thead set_tlen]; rewrite RH1, BH; exact H1|].
      split; [exact S3|]. split.
      { cbn [tlen set_tlen]. rewrite S7, L1, L2, !total_app. cbn [total].
        rewrite (total_ext m m1 la0 BLA), (total_ext m m1 lb BLB), (total_ext m m1 bl BXX).
        unfold lenof at 3. rewrite BU. cbn [len merged set_len]. lia. }
      split.
      { intros a I. cbn [thead set_tlen] in I. rewrite RH1 in I. rewrite S5. change (nxt m1) with (nxt m).
        destruct I as [I|I]; [apply B1; left; auto|].
        apply in_app_iff in I as [I|I]; [apply B1; right; apply in_app_iff; auto|].
        apply in_app_iff in I as [I|I]; [apply B2; right; right; auto|apply B1; right; apply in_app_iff; auto]. }
      assert (CI' : cache_in m1 x1 (la0 ++ [u])).
      { apply (cache_merge m m1 x la0 u v0); auto.
        - fold h. destruct R1 as (_ & _ & D1). change (h :: (la0 ++ [u]) ++ lb) with ((h :: la0 ++ [u]) ++ lb) in D1.
          apply nodup_app in D1. tauto.
        - fold h. intros Q. apply (DJ v0); [right; left; auto|]. destruct Q as [Q|Q]; [left; auto|right; apply in_app_iff; auto]. }
      assert (CI'' : cache_in m3 x1 (la0 ++ [u])).
      { eapply cache_ext; [exact CI'|]. intros a I. apply S8. intros Q. apply (DJ a); [right; right; auto|right; apply in_app_iff; auto]. }
      destruct CI'' as (l1 & l2 & C0 & C1 & C2). exists l1, (l2 ++ bl ++ lb). rewrite C0, <- !app_assoc. auto. }
    split.
    { split; [exact S4|]. split; [cbn [bhead]; rewrite BHB; exact H2|]. split; [intros a []|]. split; [reflexivity|].
      intros a [<-|[]]. rewrite S5. apply B2. left. auto. }
    split.
    { rewrite S6, !content_app. rewrite (content_ext files m m1 la0 BLA), (content_ext files m m1 lb BLB), (content_ext files m m1 bl BXX).
      cbn [content flat_map]. rewrite BU, I1, !app_nil_r, <- !app_assoc. reflexivity. }
    split; [exact S5|]. split; [|intros a I; right; auto].
    split; [rewrite S5; unfold m1; cbn [nxt set_bd]; lia|]. intros a A N. rewrite in_app_iff in N.
    destruct (S9 a) as [Q1 Q2]; [intros Q; apply N; left; auto|intros Q; apply N; right; exact Q|].
    split; [exact Q1|]. split; [exact Q2|]. rewrite S8 by (intros Q; apply N; right; right; right; auto).
    apply BO. intros ->. apply N. left. exact Iu.
Qed.

(** ** Frames *)
Lemma Tok_frame : forall files files' n n' m m' t x l, Tok files n m t x l ->
  (forall a, In a (thead x :: l) -> same_at m m' a) -> (nxt m <= nxt m')%nat -> grows files files' n n' ->
  Tok files' n' m' t x l /\ content files' m' l = content files m l.
Proof.
  intros files files' n n' m m' t x l (R & H & O & L & B & C) S N G.
  assert (E : forall a, In a l -> bd m' a = bd m a) by (intros a A; apply S; right; auto).
  split; [split; [|split; [|split; [|split; [|split]]]]|].
  - eapply ring_frame; [exact R|]. intros a A. destruct (S a A) as (S1 & S2 & _). auto.
  - destruct (S (thead x) ltac:(left; auto)) as (_ & _ & ->). auto.
  - intros a A. rewrite E by auto. apply (body_grows _ _ _ _ _ _ G (O a A)).
  - rewrite (total_ext m m' l E). auto.
  - intros a A. specialize (B a A). lia.
  - eapply cache_ext; eauto.
  - rewrite <- (content_ext files m m' l E). clear - O G E. induction l as [|a l IH]; [reflexivity|].
    cbn [content flat_map]. f_equal.
    + rewrite E by (left; auto). apply (body_grows _ _ _ _ _ _ G (O a ltac:(left; auto))).
    + apply IH; [intros b B; apply O; right; auto|intros b B; apply E; right; auto].
Qed.
Lemma Bok_frame : forall files files' n n' m m' B l, Bok files n m B l ->
  (forall a, In a (bhead B :: l) -> same_at m m' a) -> (nxt m <= nxt m')%nat -> grows files files' n n' ->
  Bok files' n' m' B l /\ content files' m' l = content files m l.
Proof.
  intros files files' n n' m m' B l (R & H & O & L & Bl) S N G.
  assert (E : forall a, In a l -> bd m' a = bd m a) by (intros a A; apply S; right; auto).
  split; [split; [|split; [|split; [|split]]]|].
  - eapply ring_frame; [exact R|]. intros a A. destruct (S a A) as (S1 & S2 & _). auto.
  - destruct (S (bhead B) ltac:(left; auto)) as (_ & _ & ->). auto.
  - intros a A. rewrite E by auto. apply (body_grows _ _ _ _ _ _ G (O a A)).
  - rewrite (total_ext m m' l E). auto.
  - intros a A. specialize (Bl a A). lia.
  - rewrite <- (content_ext files m m' l E). clear - O G E. induction l as [|a l IH]; [reflexivity|].
    cbn [content flat_map]. f_equal.
    + rewrite E by (left; auto). apply (body_grows _ _ _ _ _ _ G (O a ltac:(left; auto))).
    + apply IH; [intros b Q; apply O; right; auto|intros b Q; apply E; right; auto].
Qed.
Lemma grows_refl : forall files n, grows files files n n.
Proof. intros. split; auto. intros. exists []. rewrite app_nil_r. auto. Qed.
Lemma keeps_same : forall m m' S h l, keeps m m' S -> below m h l -> disj (h :: l) S -> forall a, In a (h :: l) -> same_at m m' a.
Proof. intros m m' S h l [_ K] B D a A. apply K; [apply B; auto|apply D; auto]. Qed.

(** ** Insert and Append *)
Lemma Insert_ok : forall files n m t x l B bl pos, Tok files n m t x l -> Bok files n m B bl ->
  disj (bhead B :: bl) (thead x :: l) -> 0 <= pos ->
  let p := Z.min pos (total m l) in
  exists m' x' l', Insert m t x pos B = Ok (m', x', {| blen := 0; bhead := bhead B |}, NInsert p (p + blen B)) /\
    Tok files n m' t x' l' /\ thead x' = thead x /\ Bok files n m' {| blen := 0; bhead := bhead B |} [] /\
    content files m' l' = firstn (Z.to_nat p) (content files m l) ++ content files m bl ++ skipn (Z.to_nat p) (content files m l) /\
    keeps m m' ((thead x :: l) ++ bhead B :: bl) /\ from m m' ((thead x :: l) ++ bhead B :: bl) l'.
Proof.
  intros files n m t x l B bl pos T BK DJ P p.
  destruct (find_split files n m t x l pos T P) as (x1 & pos' & u & org & off & m1 & la & lb & F1 & F2 & F3 & F4 & F5 & F6 & F7 & F8 & F9 & F10 & F11 & _).
  unfold Insert. rewrite F1. cbn [bind]. rewrite F3. cbn [bind].
  pose proof BK as (_ & _ & _ & _ & BB). pose proof T as (_ & _ & _ & TL & _ & _).
  pose proof (keeps_same _ _ _ _ _ F10 BB DJ) as SB.
  destruct (Bok_frame files files n n m m1 B bl BK SB (proj1 F10) (grows_refl _ _)) as [BK1 CB].
  destruct (insert_core files n m1 t x1 B la lb bl F5 F6 BK1) as (m2 & x2 & v & m3 & X & G1 & G2 & G3 & G4 & G5 & G6 & G7 & G8 & G9 & G10).
  { intros a A Q. rewrite F4 in Q. destruct Q as [Q|Q]; [apply (DJ a A); left; auto|].
    destruct (F11 a Q) as [Q'|Q']; [apply (DJ a A); auto|]. specialize (BB a A). lia. }
  rewrite F4 in G1, G2. rewrite G1. cbn [bind]. rewrite G2. cbn [bind]. cbn [emptied].
  rewrite G4.
  pose proof F5 as (_ & _ & O5 & L5 & _). apply runs_app in O5 as [O5 O5'].
  destruct (content_cut files n (Some t) m m1 l la lb O5 F8) as [C1 C2].
  do 3 eexists. split; [rewrite F2; reflexivity|]. cbv zeta in G5.
  split; [exact G5|]. split; [cbn [thead set_tlen]; congruence|]. split; [exact G6|]. split.
  { rewrite G7, C1, C2, CB, F7, F2. reflexivity. }
  split.
  - eapply keeps_trans; [eapply keeps_mono; [exact F10|intros a A; apply in_app_iff; auto]|exact G9|].
    rewrite F4. apply from_app; [|apply from_refl; intros a A; apply in_app_iff; auto].
    intros a [A|A]; [left; left; auto|]. destruct (F11 a A); [left; apply in_app_iff; auto|auto].
  - intros a A.
    assert (Q : In a (la ++ lb) \/ In a bl).
    { apply in_app_iff in A as [A|A]; [left; apply in_app_iff; auto|].
      apply in_app_iff in A as [A|A]; [right; apply G10; auto|left; apply in_app_iff; auto]. }
    destruct Q as [Q|Q].
    + destruct (F11 a Q) as [W|W]; [left; apply in_app_iff; auto|right; rewrite G8; lia].
    + left. apply in_app_iff. right. right. auto.
Qed.
Lemma Append_ok : forall files n m t x l B bl, Tok files n m t x l -> Bok files n m B bl ->
  disj (bhead B :: bl) (thead x :: l) ->
  exists m' x' l', Append m t x B = Ok (m', x', {| blen := 0; bhead := bhead B |}, NInsert (tlen x) (tlen x + blen B)) /\
    Tok files n m' t x' l' /\ thead x' = thead x /\ Bok files n m' {| blen := 0; bhead := bhead B |} [] /\
    content files m' l' = content files m l ++ content files m bl /\
    keeps m m' ((thead x :: l) ++ bhead B :: bl) /\ from m m' ((thead x :: l) ++ bhead B :: bl) l'.
Proof.
  intros files n m t x l B bl T BK DJ. unfold Append.
  pose proof T as (R & _ & _ & TL & _ & CI).
  assert (PV : pv m (thead x) = List.last l (thead x)).
  { apply (ring_prev m (thead x) l []). rewrite app_nil_r. exact R. }
  rewrite <- (app_nil_r l) in T, DJ.
  destruct (insert_core files n m t x B l [] bl T CI BK DJ) as (m2 & x2 & v & m3 & X & G1 & G2 & G3 & G4 & G5 & G6 & G7 & G8 & G9 & G10).
  rewrite PV, G1. cbn [bind hd] in *. rewrite G3, G2. cbn [bind emptied]. rewrite G4. cbv zeta in *.
  do 3 eexists. split; [reflexivity|]. split; [exact G5|]. split; [cbn [thead set_tlen]; congruence|]. split; [exact G6|].
  split; [rewrite G7; cbn [content flat_map]; rewrite app_nil_r; reflexivity|].
  rewrite app_nil_r in G9. split; [exact G9|].
  intros a A. left. rewrite app_nil_r in A. apply in_app_iff in A as [A|A]; apply in_app_iff; [left; right; auto|right; right; auto].
Qed.
