(** Delete and ChangeLooks (for C32). *)
From Verif Require Import Base TextsModel TextsSpec TextsRing TextsLocal TextsOps.

Lemma two_splits : forall files n m t x l beg end_, Tok files n m t x l -> 0 <= beg <= end_ ->
  exists x1 b u0 o1 ud m1 un la x2 e v0 o2 vd m2 mid lc,
    Find m x beg = Ok (x1, b, (u0, o1, ud)) /\ Split m ud u0 = Ok (m1, List.last la (thead x), un) /\
    Find m1 x1 end_ = Ok (x2, e, (v0, o2, vd)) /\ Split m1 vd v0 = Ok (m2, List.last (la ++ mid) (thead x), hd (thead x) lc) /\
    un = hd (thead x) (mid ++ lc) /\ b = Z.min beg (total m l) /\ e = Z.min end_ (total m l) /\ tlen x2 = tlen x /\
    Tok files n m2 t (set_cache x2 (tcache x1) (tcorg x1)) (la ++ mid ++ lc) /\ thead x2 = thead x /\
    cache_in m2 (set_cache x2 (tcache x1) (tcorg x1)) la /\
    content files m2 la = firstn (Z.to_nat b) (content files m l) /\
    content files m2 mid = firstn (Z.to_nat e - Z.to_nat b) (skipn (Z.to_nat b) (content files m l)) /\
    content files m2 lc = skipn (Z.to_nat e) (content files m l) /\
    total m2 la = b /\ total m2 mid = e - b /\ total m2 (la ++ mid ++ lc) = total m l /\
    keeps m m2 (thead x :: l) /\ from m m2 (thead x :: l) (la ++ mid ++ lc).
Proof.
  intros files n m t x l beg end_ T P.
  destruct (find_split files n m t x l beg T ltac:(lia)) as (x1 & b & u0 & o1 & ud & m1 & la & lb & F1 & F2 & F3 & F4 & F5 & F6 & F7 & F8 & F9 & F10 & F11 & _).
  destruct (find_split files n m1 t x1 (la ++ lb) end_ F5 ltac:(lia)) as (x2 & e & v0 & o2 & vd & m2 & la2 & lc & G1 & G2 & G3 & G4 & G5 & G6 & G7 & G8 & G9 & G10 & G11 & G12).
  rewrite F9 in G2.
  destruct (G12 la lb eq_refl ltac:(lia)) as (mid & E1 & E2 & E3). subst la2. rewrite F4 in *.
  exists x1, b, u0, o1, ud, m1, (hd (thead x) lb), la, x2, e, v0, o2, vd, m2, mid, lc.
  rewrite <- app_assoc in *.
  pose proof T as (_ & _ & _ & TL & _).
  pose proof G5 as (R5 & H5 & O5 & L5 & B5 & _).
  assert (CI : cache_in m2 (set_cache x2 (tcache x1) (tcorg x1)) la).
  { destruct F6 as (l1 & l2 & C0 & C1 & C2). exists l1, l2. cbn [tcache tcorg thead set_cache]. rewrite G4. conjs.
    - congruence.
    - rewrite C2. symmetry. apply total_ext. intros a A. apply E3. rewrite C0. apply in_app_iff. auto. }
  apply runs_app in O5 as [Oa O5']. apply runs_app in O5' as [Om Oc].
  assert (TLA : total m2 la = b) by (rewrite (total_ext m1 m2 la E3); exact F7).
  assert (TLM : total m2 mid = e - b) by (rewrite total_app in G7; lia).
  rewrite F8 in G8.
  assert (CA : content files m2 la = firstn (Z.to_nat b) (content files m l)).
  { destruct (content_cut files n (Some t) m m2 l la (mid ++ lc) Oa) as [Q _]; [exact G8|]. rewrite Q, TLA. reflexivity. }
  assert (CR : content files m2 (mid ++ lc) = skipn (Z.to_nat b) (content files m l)).
  { destruct (content_cut files n (Some t) m m2 l la (mid ++ lc) Oa) as [_ Q]; [exact G8|]. rewrite Q, TLA. reflexivity. }
  pose proof (total_nonneg _ _ _ _ _ Oa) as Za. pose proof (total_nonneg _ _ _ _ _ Om) as Zm.
  pose proof (content_len _ _ _ _ _ Om) as CLm.
  assert (HM : content files m2 mid = firstn (Z.to_nat e - Z.to_nat b) (skipn (Z.to_nat b) (content files m l)) /\
               content files m2 lc = skipn (Z.to_nat e) (content files m l)).
  { replace (skipn (Z.to_nat e) (content files m l)) with (skipn (Z.to_nat e - Z.to_nat b) (skipn (Z.to_nat b) (content files m l)))
      by (rewrite skipn_skipn'; f_equal; lia).
    rewrite <- CR, content_app, firstn_exact, skipn_exact by lia. auto. }
  destruct HM as [CM CC].
  split; [exact F1|]. split; [exact F3|]. split; [exact G1|]. split; [exact G3|]. split; [congruence|]. split; [exact F2|].
  split; [exact G2|]. split; [congruence|]. split.
  { split; [exact R5|]. split; [exact H5|]. split; [apply runs_app; split; [auto|apply runs_app; auto]|]. split; [exact L5|].
    split; [exact B5|]. destruct CI as (l1 & l2 & C0 & C1 & C2). exists l1, (l2 ++ mid ++ lc). rewrite C0, <- !app_assoc. auto. }
  split; [exact G4|]. split; [exact CI|]. split; [exact CA|]. split; [exact CM|]. split; [exact CC|]. split; [exact TLA|].
  split; [exact TLM|]. split; [congruence|]. split.
  - eapply keeps_trans; [exact F10|exact G10|]. intros a [A|A]; [left; left; auto|apply F11; auto].
  - eapply from_trans; [|exact G11|apply F10|apply G10]. intros a [A|A]; [left; left; auto|apply F11; auto].
Qed.

(** Merging at a junction and closing the gap. *)
Lemma merge_unlink : forall files n m0 m t x la Y lb,
  ring m0 (thead x) (la ++ Y ++ lb) ->
  (forall a, In a (thead x :: la ++ lb) -> nx m a = nx m0 a /\ pv m a = pv m0 a) ->
  bd m (thead x) = headrun MAXL 15 -> runs_ok files n (Some t) m (la ++ lb) -> cache_in m x la ->
  exists m1 x1 lb',
    Merge m x (List.last la (thead x)) (hd (thead x) lb) = Ok (m1, x1, hd (thead x) lb') /\
    let m' := set_pv (set_nx m1 (List.last la (thead x)) (hd (thead x) lb')) (hd (thead x) lb') (List.last la (thead x)) in
    ring m' (thead x) (la ++ lb') /\ bd m' (thead x) = headrun MAXL 15 /\ runs_ok files n (Some t) m' (la ++ lb') /\
    content files m' (la ++ lb') = content files m la ++ content files m lb /\
    total m' (la ++ lb') = total m la + total m lb /\
    cache_in m' x1 la /\ thead x1 = thead x /\ tlen x1 = tlen x /\ nxt m' = nxt m /\ incl lb' lb /\
    (forall a, ~ In a (thead x :: la ++ lb) -> same_at m m' a) /\
    (forall a, In a lb' -> bd m' a = bd m a) /\
    (m1 = m /\ x1 = x /\ lb' = lb \/ nx m1 = nx m /\ exists v, lb = v :: lb').
Proof.
  intros files n m0 m t x la Y lb R LK HB OK CI. set (h := thead x) in *.
  pose proof R as (_ & _ & D).
  assert (D1 : NoDup (h :: la ++ lb)).
  { clear - D. change (h :: la ++ lb) with ((h :: la) ++ lb). change (h :: la ++ Y ++ lb) with ((h :: la) ++ Y ++ lb) in D.
    revert D. generalize (h :: la) as A. induction A as [|a A IH]; cbn [app]; intros D.
    - apply nodup_app in D. tauto.
    - apply NoDup_cons_iff in D as [D1 D2]. constructor; auto. intros Q. apply D1. rewrite !in_app_iff in *. tauto. }
  pose proof OK as OK0. apply runs_app in OK0 as [Oa Ob].
  destruct (Merge_ok files n (Some t) (Some t) m x (List.last la h) (hd h lb)) as [M|(M & K1 & K2 & I1 & I2)].
  { pose proof (last_in _ h la) as [Q|Q]; [left; rewrite <- Q, HB; reflexivity|right; auto]. }
  { pose proof (in_hd _ h lb) as [Q|Q]; [left; rewrite <- Q, HB; reflexivity|right; auto]. }
  - exists m, x, lb. split; [exact M|]. cbv zeta.
    set (m' := set_pv (set_nx m (List.last la h) (hd h lb)) (hd h lb) (List.last la h)).
    assert (BD : forall a, bd m' a = bd m a) by reflexivity.
    split.
    { apply ring_cut with (m := m0) (X := Y); auto; intros a A; unfold m'; cbn [nx pv set_nx set_pv]; unfold upd;
        destruct (Nat.eqb _ _); auto; apply LK; auto. }
    split; [exact HB|]. split; [eapply runs_ext; eauto|]. split; [rewrite content_app; reflexivity|].
    split; [rewrite total_app, (total_ext m m' la), (total_ext m m' lb) by auto; reflexivity|]. split; [eapply cache_ext; eauto|]. split; [reflexivity|]. split; [reflexivity|]. split; [reflexivity|].
    split; [intros a A; auto|]. split; [|split; [intros; apply BD|left; auto]].
    intros a A. unfold same_at, m'. cbn [nx pv bd set_nx set_pv]. rewrite !upd_neq; auto.
    + intros ->. apply A. pose proof (in_hd _ h lb) as [Q|Q]; [left; auto|right; apply in_app_iff; auto].
    + intros ->. apply A. pose proof (last_in _ h la) as [Q|Q]; [left; auto|right; apply in_app_iff; auto].
  - destruct lb as [|v lb]; [cbn [hd] in K2; rewrite HB in K2; cbn in K2; congruence|].
    destruct (snoc_cases _ la) as [->|(la0 & u & ->)]; [cbn [List.last] in K1; rewrite HB in K1; cbn in K1; congruence|].
    rewrite last_app1 in *. cbn [hd] in *.
    assert (NV : nx m v = hd h lb).
    { destruct (LK v) as [Q _]; [right; apply in_app_iff; right; left; auto|]. rewrite Q.
      change ((la0 ++ [u]) ++ Y ++ v :: lb) with ((la0 ++ [u]) ++ Y ++ [v] ++ lb) in R.
      rewrite (app_assoc Y), app_assoc in R. rewrite <- (ring_next _ _ _ _ R).
      rewrite app_assoc, last_app1. reflexivity. }
    rewrite NV in M. rewrite <- app_assoc in D1. cbn [app] in D1.
    pose proof (nodup_mid _ _ _ _ _ D1) as (U1 & U2 & U3 & U4 & U5).
    assert (V1 : ~ In v (h :: la0 ++ [u]) /\ ~ In v lb).
    { replace (h :: la0 ++ u :: v :: lb) with ((h :: la0 ++ [u]) ++ v :: lb) in D1 by (cbn [app]; rewrite <- app_assoc; reflexivity).
      apply NoDup_remove_2 in D1. rewrite in_app_iff in D1. tauto. }
    destruct V1 as [V1 V2].
    exists (set_bd m u (merged m u v)), (recache m x u v), lb. split; [exact M|]. cbv zeta.
    set (m' := set_pv (set_nx (set_bd m u (merged m u v)) u (hd h lb)) (hd h lb) u).
    assert (BO : forall a, a <> u -> bd m' a = bd m a) by (intros; unfold m'; cbn [bd set_bd set_nx set_pv]; apply upd_neq; auto).
    assert (BU : bd m' u = merged m u v) by (unfold m'; cbn [bd set_bd set_nx set_pv]; apply upd_eq).
    assert (BLA : forall a, In a la0 -> bd m' a = bd m a) by (intros a I; apply BO; intros ->; auto).
    assert (BLB : forall a, In a lb -> bd m' a = bd m a) by (intros a I; apply BO; intros ->; apply U3; right; auto).
    destruct (recache_head m x u v) as [RH1 RH2].
    split.
    { apply ring_cut with (m := m0) (X := Y ++ [v]).
      - rewrite <- (app_assoc Y). exact R.
      - rewrite last_app1. intros a A. unfold m'. cbn [nx set_nx set_pv set_bd]. unfold upd. destruct (Nat.eqb _ _); auto.
        apply LK. destruct A as [A|A]; [left; auto|right; apply in_app_iff; apply in_app_iff in A as [A|A]; [auto|right; right; auto]].
      - rewrite last_app1. intros a A. unfold m'. cbn [pv set_nx set_pv set_bd]. unfold upd. destruct (Nat.eqb _ _); auto.
        apply LK. destruct A as [A|A]; [left; auto|right; apply in_app_iff; apply in_app_iff in A as [A|A]; [auto|right; right; auto]]. }
    split; [rewrite BO by auto; exact HB|]. split.
    { intros a A. destruct (Nat.eq_dec a u) as [->|NE]; [rewrite BU; exact I2|]. rewrite BO by auto. apply OK.
      apply in_app_iff. apply in_app_iff in A as [A|A]; [auto|right; right; auto]. }
    split.
    { rewrite !content_app, (content_ext files m m' la0 BLA), (content_ext files m m' lb BLB).
      cbn [content flat_map]. rewrite BU, I1, !app_nil_r, <- !app_assoc. reflexivity. }
    split.
    { rewrite !total_app, (total_ext m m' la0 BLA), (total_ext m m' lb BLB). cbn [total]. unfold lenof at 1. rewrite BU.
      cbn [len merged set_len]. lia. }
    split.
    { apply (cache_merge m m' x la0 u v); auto. fold h. replace (h :: la0 ++ u :: v :: lb) with ((h :: la0 ++ [u]) ++ v :: lb) in D1
        by (cbn [app]; rewrite <- app_assoc; reflexivity). apply nodup_app in D1. tauto. }
    split; [exact RH1|]. split; [exact RH2|]. split; [reflexivity|]. split; [intros a A; right; auto|].
    split; [|split; [exact BLB|right; split; [reflexivity|exists v; reflexivity]]].
    intros a A. assert (a <> u) by (intros ->; apply A; right; apply in_app_iff; left; apply in_app_iff; right; left; auto).
    unfold same_at, m'. cbn [nx pv bd set_nx set_pv set_bd]. rewrite !upd_neq; auto.
    intros ->. apply A. pose proof (in_hd _ h lb) as [Q|Q]; [left; auto|right; apply in_app_iff; right; right; auto].
Qed.

(** ** Delete *)
Lemma Delete_ok : forall files n m t x l beg end_, Tok files n m t x l -> 0 <= beg <= end_ ->
  let b := Z.min beg (total m l) in let e := Z.min end_ (total m l) in
  exists m' x' l' D dl, Delete m x beg end_ = Ok (m', x', D, NDelete b e) /\
    Tok files n m' t x' l' /\ thead x' = thead x /\ Bok files n m' D dl /\ disj (bhead D :: dl) (thead x :: l') /\
    content files m' l' = firstn (Z.to_nat b) (content files m l) ++ skipn (Z.to_nat e) (content files m l) /\
    content files m' dl = firstn (Z.to_nat e - Z.to_nat b) (skipn (Z.to_nat b) (content files m l)) /\
    keeps m m' (thead x :: l) /\ from m m' (thead x :: l) (l' ++ bhead D :: dl).
Proof.
  intros files n m t x l beg end_ T P b e.
  destruct (two_splits files n m t x l beg end_ T P) as
    (x1 & b' & u0 & o1 & ud & m1 & un & la & x2 & e' & v0 & o2 & vd & m2 & mid & lc & F1 & F2 & F3 & F4 & F5 & F6 & F7 & F8 & F9 & F10 & F11 & F12 & F13 & F14 & F15 & F16 & F17 & F18 & F19).
  fold b in F6. fold e in F7. subst b' e'.
  unfold Delete. rewrite F1. cbn [bind]. rewrite F2. cbn [bind]. rewrite F3. cbn [bind]. rewrite F4. cbn [bind].
  set (x3 := set_cache x2 (tcache x1) (tcorg x1)) in *.
  unfold OpenBuf. cbn [new]. cbn [bhead].
  set (d := nxt m2).
  match goal with |- context [Splice ?M _ _ _ _] => set (m3 := M) end.
  set (h := thead x) in *.
  destruct F9 as (R9 & H9 & O9 & L9 & B9 & _). change (thead x3) with (thead x2) in *. rewrite F10 in *.
  assert (LK3 : forall a, In a (h :: la ++ mid ++ lc) -> nx m3 a = nx m2 a /\ pv m3 a = pv m2 a /\ bd m3 a = bd m2 a).
  { intros a A. specialize (B9 a A). unfold m3. cbn [nx pv bd set_nx set_pv]. rewrite !upd_neq by (unfold d; lia). auto. }
  assert (Rd : ring m3 d []) by (apply ring_nil; unfold m3; cbn [nx pv set_nx set_pv]; apply upd_eq).
  assert (R3 : ring m3 h (la ++ mid ++ lc)).
  { eapply ring_frame; [exact R9|]. intros a A. destruct (LK3 a A) as (Q1 & Q2 & _). auto. }
  assert (ND : ~ In d (h :: la ++ mid ++ lc)) by (intros A; specialize (B9 d A); unfold d in B9; lia).
  destruct (Splice_ok m3 d [] [] h la mid lc None Rd R3) as (m4 & S1 & S2 & S3 & S4 & S5 & S6).
  { intros a A [<-|[]]. auto. }
  { intros a A. specialize (B9 a A). unfold m3. cbn [nxt set_nx set_pv]. lia. }
  cbn [hd app] in S1, S2. rewrite F5, hd_app, last_app'. rewrite S1. cbn [bind].
  apply runs_app in O9 as [Oa O9']. apply runs_app in O9' as [Om Oc].
  pose proof R9 as (_ & _ & D9).
  assert (DM : forall a, In a (h :: la ++ lc) -> ~ In a mid).
  { intros a A I. change (h :: la ++ mid ++ lc) with ((h :: la) ++ mid ++ lc) in D9. apply nodup_app in D9 as (_ & D9 & Dx).
    apply nodup_app in D9 as (_ & _ & Dy). change (h :: la ++ lc) with ((h :: la) ++ lc) in A. apply in_app_iff in A as [A|A]; [|eauto].
    apply (Dx a A). apply in_app_iff. auto. }
  assert (SUB : forall a, In a (h :: la ++ lc) -> In a (h :: la ++ mid ++ lc)).
  { intros a [A|A]; [left; auto|right]. rewrite !in_app_iff in *. tauto. }
  assert (LK4 : forall a, In a (h :: la ++ lc) -> nx m4 a = nx m2 a /\ pv m4 a = pv m2 a /\ bd m4 a = bd m2 a).
  { intros a A. destruct (LK3 a (SUB a A)) as (Q1 & Q2 & Q3). destruct (S6 a) as [Q4 Q5].
    - intros [Q|[]]. subst a. apply ND. apply SUB. auto.
    - apply DM. auto.
    - rewrite (S4 a (DM a A)). split; [congruence|]. split; congruence. }
  assert (BD4 : forall a, In a (la ++ lc) -> bd m4 a = bd m2 a) by (intros a A; apply LK4; right; auto).
  destruct (merge_unlink files n m2 m4 t x3 la mid lc) as (m5 & x5 & lc' & G1 & G2 & G3 & G4 & G5 & G6 & G7 & G8 & G9 & G10 & G11 & G12 & _).
  { change (thead x3) with (thead x2). rewrite F10. exact R9. }
  { change (thead x3) with (thead x2). rewrite F10. intros a A. destruct (LK4 a A) as (Q1 & Q2 & _). auto. }
  { change (thead x3) with (thead x2). rewrite F10. destruct (LK4 h ltac:(left; auto)) as (_ & _ & ->). exact H9. }
  { eapply runs_ext; [|exact BD4]. apply runs_app. auto. }
  { eapply cache_ext; [exact F11|]. intros a A. apply BD4. apply in_app_iff. auto. }
  change (thead x3) with (thead x2) in *. rewrite F10 in *. rewrite G1. cbn [bind]. cbv zeta in *.
  match type of G2 with ring ?M _ _ => set (m6 := M) in * end.
  assert (BLA : forall a, In a la -> bd m4 a = bd m2 a) by (intros a A; apply BD4; apply in_app_iff; auto).
  assert (BLC : forall a, In a lc -> bd m4 a = bd m2 a) by (intros a A; apply BD4; apply in_app_iff; auto).
  assert (N3 : nxt m3 = S (nxt m2)) by reflexivity.
  assert (N6 : nxt m6 = S (nxt m2)) by congruence.
  assert (Dd : ~ In d mid).
  { intros A. apply ND. right. rewrite !in_app_iff. auto. }
  assert (DL : forall a, In a (d :: mid) -> same_at m4 m6 a).
  { intros a A. apply G12. intros Q. destruct A as [<-|A]; [apply ND; apply SUB; auto|apply (DM a Q A)]. }
  assert (BM : forall a, In a mid -> bd m6 a = rebody None (bd m2 a)).
  { intros a A. destruct (DL a ltac:(right; auto)) as (_ & _ & ->). rewrite (S5 a A). f_equal. apply LK3. right. rewrite !in_app_iff. auto. }
  destruct (total_rebody files n (Some t) None m2 m6 mid Om BM) as (T1 & T2 & T3).
  do 3 eexists. exists {| blen := e - b; bhead := d |}, mid. split; [reflexivity|].
  cbn [bhead].
  split.
  { split; [cbn [thead set_tlen]; rewrite G8; exact G2|]. split; [cbn [thead set_tlen]; rewrite G8; exact G3|].
    split; [exact G4|]. split.
    { cbn [tlen set_tlen]. rewrite G6, G9. change (tlen x3) with (tlen x2). rewrite F8.
      rewrite (total_ext m2 m4 la BLA), (total_ext m2 m4 lc BLC). destruct T as (_ & _ & _ & TL & _). rewrite TL, <- F17, !total_app. lia. }
    split.
    { intros a A. cbn [thead set_tlen] in A. rewrite G8 in A. rewrite N6. apply Nat.lt_lt_succ_r. apply B9. apply SUB.
      destruct A as [A|A]; [left; auto|right]. apply in_app_iff in A as [A|A]; apply in_app_iff; auto. }
    destruct G7 as (l1 & l2 & C0 & C1 & C2). exists l1, (l2 ++ lc'). rewrite C0, <- app_assoc. auto. }
  split; [cbn [thead set_tlen]; exact G8|]. split.
  { split; [eapply ring_frame; [rewrite app_nil_r in S2; exact S2|intros a A; destruct (DL a A) as (Q1 & Q2 & _); auto]|].
    split.
    { cbn [bhead]. destruct (DL d ltac:(left; auto)) as (_ & _ & ->). rewrite S4 by exact Dd. unfold m3. cbn [bd set_nx set_pv].
      apply upd_eq. }
    split; [exact T3|]. split; [cbn [blen]; lia|].
    intros a [<-|A]; rewrite N6; [cbn [bhead]; unfold d; lia|]. apply Nat.lt_lt_succ_r. apply B9. right. rewrite !in_app_iff. auto. }
  split.
  { intros a A Q. assert (Q' : In a (h :: la ++ lc)).
    { destruct Q as [Q|Q]; [left; auto|right]. rewrite in_app_iff in *. destruct Q as [Q|Q]; auto. }
    destruct A as [<-|A]; [apply ND; apply SUB; auto|apply (DM a Q' A)]. }
  split.
  { rewrite G5, (content_ext files m2 m4 la BLA), (content_ext files m2 m4 lc BLC), F12, F14. reflexivity. }
  split; [rewrite T2; exact F13|].
  assert (K26 : keeps m2 m6 (h :: la ++ mid ++ lc)).
  { split; [lia|]. intros a A N. assert (NS : ~ In a (h :: la ++ lc)) by (intros Q; apply N; apply SUB; auto).
    destruct (G12 a NS) as (Q1 & Q2 & Q3).
    assert (NM : ~ In a mid) by (intros Q; apply N; right; rewrite !in_app_iff; auto).
    assert (a <> d) by (unfold d; lia).
    destruct (S6 a) as [Q4 Q5]; [intros [Q|[]]; congruence|exact NM|].
    unfold same_at. rewrite Q1, Q2, Q3, Q4, Q5, (S4 a NM). unfold m3. cbn [nx pv bd set_nx set_pv]. rewrite !upd_neq by auto. auto. }
  split.
  { eapply keeps_trans; [exact F18|exact K26|]. intros a [A|A]; [left; left; auto|apply F19; auto]. }
  intros a A. pose proof (proj1 F18) as N1. apply in_app_iff in A as [A|[A|A]].
  - assert (Q : In a (la ++ mid ++ lc)) by (rewrite !in_app_iff in *; destruct A; auto).
    destruct (F19 a Q); [auto|right; lia].
  - right. unfold d in A. lia.
  - assert (Q : In a (la ++ mid ++ lc)) by (rewrite !in_app_iff; auto). destruct (F19 a Q); [auto|right; lia].
Qed.

(** ** ChangeLooks *)
Lemma repaint_ok : forall files n base k b, body_ok files n base b ->
  body_ok files n base (repaint k b) /\ items files (repaint k b) = map (change k) (items files b) /\ len (repaint k b) = len b.
Proof.
  intros files n base k b ((f & F) & K).
  assert (FN : exists f', fnt (repaint k b) = Some f').
  { cbn [repaint fnt]. destruct (s0 k); cbn [andb]; [destruct (lfnt k); eauto|eauto]. }
  split; [split; [exact FN|exact K]|]. split; [|reflexivity].
  assert (FF : fnt (repaint k b) = if s0 k then match lfnt k with Some f => Some f | None => fnt b end else fnt b).
  { cbn [repaint fnt]. destruct (s0 k); cbn [andb]; [destruct (lfnt k); auto|auto]. }
  unfold items. rewrite FF. cbn [repaint kd len col voff]. destruct (kd b) as [|fi o a|i c]; [reflexivity| |reflexivity].
  rewrite map_map. reflexivity.
Qed.
Lemma looks_loop_ok : forall files n t k mid m x la lc fuel, Tok files n m t x (la ++ mid ++ lc) -> cache_in m x la ->
  (length mid <= fuel)%nat ->
  exists m' x' la', looks_loop fuel m x k (List.last la (thead x)) (hd (thead x) (mid ++ lc)) (hd (thead x) lc) =
      Ok (m', x', (List.last la' (thead x), hd (thead x) lc)) /\
    Tok files n m' t x' (la' ++ lc) /\ cache_in m' x' la' /\ thead x' = thead x /\
    content files m' (la' ++ lc) = content files m la ++ map (change k) (content files m mid) ++ content files m lc /\
    nxt m' = nxt m /\ keeps m m' (thead x :: la ++ mid ++ lc) /\ incl la' (la ++ mid).
Proof.
  intros files n t k. induction mid as [|un mid IH]; intros m x la lc fuel T CI F.
  - exists m, x, la. cbn [app] in *.
    assert (E : looks_loop fuel m x k (List.last la (thead x)) (hd (thead x) lc) (hd (thead x) lc) =
      Ok (m, x, (List.last la (thead x), hd (thead x) lc))) by (destruct fuel; cbn [looks_loop]; rewrite Nat.eqb_refl; auto).
    rewrite content_app, app_nil_r. cbn [content flat_map map app]. conjs.
    + apply keeps_refl.
    + intros a A. auto.
  - destruct fuel as [|fuel]; [cbn in F; lia|]. cbn [length] in F.
    set (h := thead x) in *. cbn [app hd looks_loop].
    destruct T as (R & H & O & L & B & _). fold h in R, H, B.
    pose proof R as (_ & _ & D).
    change (h :: la ++ (un :: mid) ++ lc) with (h :: la ++ un :: mid ++ lc) in D.
    destruct (nodup_mid _ _ _ _ _ D) as (D1 & D2 & D3 & D4 & D5).
    assert (NV : un <> hd h lc).
    { intros Q. pose proof (in_hd _ h lc) as I. rewrite <- Q in I. destruct I as [I|I]; [congruence|]. apply D3. apply in_app_iff. auto. }
    apply Nat.eqb_neq in NV. rewrite NV.
    set (mr := set_bd m un (repaint k (bd m un))).
    assert (BO : forall a, a <> un -> bd mr a = bd m a) by (intros; unfold mr; cbn [bd set_bd]; apply upd_neq; auto).
    assert (BU : bd mr un = repaint k (bd m un)) by (unfold mr; cbn [bd set_bd]; apply upd_eq).
    destruct (repaint_ok files n (Some t) k (bd m un)) as (P1 & P2 & P3).
    { apply O. apply in_app_iff. right. left. auto. }
    assert (OR : runs_ok files n (Some t) mr (la ++ un :: mid ++ lc)).
    { intros a A. destruct (Nat.eq_dec a un) as [->|NE]; [rewrite BU; exact P1|rewrite BO by auto; apply O; auto]. }
    assert (BLA : forall a, In a la -> bd mr a = bd m a) by (intros a A; apply BO; intros ->; auto).
    assert (BLM : forall a, In a mid -> bd mr a = bd m a) by (intros a A; apply BO; intros ->; apply D3; apply in_app_iff; auto).
    assert (BLC : forall a, In a lc -> bd mr a = bd m a) by (intros a A; apply BO; intros ->; apply D3; apply in_app_iff; auto).
    assert (Rr : ring mr h (la ++ un :: mid ++ lc)) by (apply ring_bd; exact R).
    assert (TR : total mr (la ++ un :: mid ++ lc) = total m (la ++ (un :: mid) ++ lc)).
    { cbn [app]. rewrite !total_split, !total_app, (total_ext m mr la BLA), (total_ext m mr mid BLM), (total_ext m mr lc BLC).
      unfold lenof. rewrite BU, P3. reflexivity. }
    assert (CR : cache_in mr x la) by (eapply cache_ext; eauto).
    destruct (merge_unlink files n mr mr t x la [] (un :: mid ++ lc)) as (m1 & x1 & lb' & G1 & G2 & G3 & G4 & G5 & G6 & G7 & G8 & G9 & G10 & G11 & G12 & GB & G13); auto.
    { fold h. rewrite BO by auto. exact H. }
    fold h in G1, G2, G3, G4, G5, G6, G7, G8, G10, G12, GB. cbn [hd] in G1. rewrite G1. cbn [bind].
    assert (NU : nx mr (List.last la h) = un) by (apply (ring_next mr h la (un :: mid ++ lc)); exact Rr).
    destruct G13 as [(-> & -> & ->)|(EN & v & EV)].
    + cbn [hd]. rewrite NU, Nat.eqb_refl.
      assert (NUN : nx mr un = hd h (mid ++ lc)).
      { change (la ++ un :: mid ++ lc) with (la ++ [un] ++ mid ++ lc) in Rr. rewrite app_assoc in Rr.
        rewrite <- (ring_next _ _ _ _ Rr), last_app1. reflexivity. }
      rewrite NUN.
      assert (CRU : cache_in mr x (la ++ [un])).
      { destruct CR as (l1 & l2 & C0 & C1 & C2). exists l1, (l2 ++ [un]). rewrite C0, <- app_assoc. auto. }
      destruct (IH mr x (la ++ [un]) lc fuel) as (m' & x' & la' & I1 & I2 & I3 & I4 & I5 & I6 & I7 & I8).
      * rewrite <- app_assoc. cbn [app]. split; [exact Rr|]. split; [fold h; rewrite BO by auto; exact H|]. split; [exact OR|].
        split; [rewrite TR; exact L|]. split; [exact B|]. destruct CR as (l1 & l2 & C0 & C1 & C2). exists l1, (l2 ++ un :: mid ++ lc).
        rewrite C0, <- app_assoc. auto.
      * exact CRU.
      * lia.
      * fold h in I1, I4, I7. rewrite last_app1 in I1. exists m', x', la'. split; [exact I1|]. split; [exact I2|]. split; [exact I3|].
        split; [exact I4|]. split.
        { rewrite I5, content_app, (content_ext files m mr la BLA), (content_ext files m mr mid BLM), (content_ext files m mr lc BLC).
          cbn [content flat_map]. rewrite BU, P2, map_app, app_nil_r, <- !app_assoc. reflexivity. }
        split; [exact I6|]. split.
        { eapply keeps_trans; [|exact I7|].
          - split; [auto|]. intros a A N. split; [reflexivity|]. split; [reflexivity|]. apply BO. intros ->. apply N. right.
            apply in_app_iff. right. left. auto.
          - apply from_refl. intros a A. rewrite <- app_assoc in A. exact A. }
        intros a A. apply I8 in A. rewrite <- app_assoc in A. exact A.
    + injection EV as <- <-. 
      assert (Q : (un =? hd h (mid ++ lc))%nat = false).
      { apply Nat.eqb_neq. intros Q. pose proof (in_hd _ h (mid ++ lc)) as I. rewrite <- Q in I. destruct I as [I|I]; [congruence|auto]. }
      rewrite EN, NU, Q.
      cbv zeta in *. match type of G2 with ring ?M _ _ => set (m2 := M) in * end.
      destruct (IH m2 x1 la lc fuel) as (m' & x' & la' & I1 & I2 & I3 & I4 & I5 & I6 & I7 & I8).
      * split; [rewrite G8; exact G2|]. split; [rewrite G8; exact G3|]. split; [exact G4|]. split.
        { rewrite G9, L, G6, <- TR, total_app. reflexivity. }
        split.
        { rewrite G8. intros a A. rewrite G10. apply B. destruct A as [A|A]; [left; auto|right].
          apply in_app_iff in A as [A|A]; apply in_app_iff; [auto|right; right; auto]. }
        destruct G7 as (l1 & l2 & C0 & C1 & C2). exists l1, (l2 ++ mid ++ lc). rewrite C0, <- !app_assoc. auto.
      * exact G7.
      * lia.
      * rewrite G8 in I1, I4, I7. exists m', x', la'. split; [exact I1|]. split; [exact I2|]. split; [exact I3|].
        split; [exact I4|].
        assert (KP : keeps m m2 (h :: la ++ (un :: mid) ++ lc)).
        { split; [rewrite G10; apply le_n|]. intros a A N. destruct (G12 a N) as (Q1 & Q2 & Q3). split; [exact Q1|]. split; [exact Q2|]. rewrite Q3.
          apply BO. intros ->. apply N. right. apply in_app_iff. right. left. auto. }
        split.
        { rewrite I5.
          assert (K1 : forall a, In a mid -> bd m2 a = bd m a) by (intros a A; rewrite GB by (apply in_app_iff; auto); auto).
          assert (K2 : forall a, In a lc -> bd m2 a = bd m a) by (intros a A; rewrite GB by (apply in_app_iff; auto); auto).
          rewrite (content_ext files m m2 mid K1), (content_ext files m m2 lc K2).
          assert (CA : content files m2 la = content files m la ++ map (change k) (items files (bd m un))).
          { apply (app_inv_tail (content files m2 (mid ++ lc))). rewrite <- content_app, G5, <- app_assoc.
            rewrite (content_ext files m mr la BLA). f_equal.
            change (content files mr (un :: mid ++ lc)) with (items files (bd mr un) ++ content files mr (mid ++ lc)).
            rewrite BU, P2. f_equal. symmetry. apply content_ext. exact GB. }
          rewrite CA. cbn [content flat_map]. rewrite map_app, <- !app_assoc. reflexivity. }
        split; [rewrite I6, G10; reflexivity|]. split.
        { eapply keeps_trans; [exact KP|exact I7|]. apply from_refl. intros a A. destruct A as [A|A]; [left; auto|right].
          apply in_app_iff in A as [A|A]; apply in_app_iff; [auto|right; right; auto]. }
        intros a A. apply I8 in A. apply in_app_iff in A as [A|A]; apply in_app_iff; [auto|right; right; auto].
Qed.
Lemma ChangeLooks_ok : forall files n m t x l beg end_ k, Tok files n m t x l -> 0 <= beg <= end_ ->
  let b := Z.min beg (total m l) in let e := Z.min end_ (total m l) in
  exists m' x' l', ChangeLooks m x beg end_ k = Ok (m', x', NReplace b e) /\
    Tok files n m' t x' l' /\ thead x' = thead x /\
    content files m' l' = firstn (Z.to_nat b) (content files m l) ++
      map (change k) (firstn (Z.to_nat e - Z.to_nat b) (skipn (Z.to_nat b) (content files m l))) ++
      skipn (Z.to_nat e) (content files m l) /\
    keeps m m' (thead x :: l) /\ from m m' (thead x :: l) l'.
Proof.
  intros files n m t x l beg end_ k T P b e.
  destruct (two_splits files n m t x l beg end_ T P) as
    (x1 & b' & u0 & o1 & ud & m1 & un & la & x2 & e' & v0 & o2 & vd & m2 & mid & lc & F1 & F2 & F3 & F4 & F5 & F6 & F7 & F8 & F9 & F10 & F11 & F12 & F13 & F14 & F15 & F16 & F17 & F18 & F19).
  fold b in F6. fold e in F7. subst b' e'.
  unfold ChangeLooks. rewrite F1. cbn [bind]. rewrite F2. cbn [bind]. rewrite F3. cbn [bind]. rewrite F4. cbn [bind].
  set (x3 := set_cache x2 (tcache x1) (tcorg x1)) in *.
  destruct (looks_loop_ok files n t k mid m2 x3 la lc (S (nxt m2)) F9 F11) as (m4 & x4 & la' & I1 & I2 & I3 & I4 & I5 & I6 & I7 & I8).
  { destruct F9 as (R9 & _ & _ & _ & B9 & _). pose proof (ring_length _ _ _ R9 B9). rewrite !app_length in *. lia. }
  change (thead x3) with (thead x2) in *. rewrite F10 in *. rewrite F5, I1. cbn [bind].
  destruct I2 as (R4 & H4 & O4 & L4 & B4 & _).
  destruct (merge_unlink files n m4 m4 t x4 la' [] lc) as (m5 & x5 & lc' & G1 & G2 & G3 & G4 & G5 & G6 & G7 & G8 & G9 & G10 & G11 & G12 & _); auto.
  rewrite I4 in *. rewrite G1. cbn [bind]. cbv zeta in *.
  match type of G2 with ring ?M _ _ => set (m6 := M) in * end.
  do 3 eexists. split; [reflexivity|]. split.
  { split; [rewrite G8; exact G2|]. split; [rewrite G8; exact G3|]. split; [exact G4|].
    split; [rewrite G6, G9, L4, total_app; reflexivity|]. split.
    { rewrite G8. intros a A. rewrite G10. apply B4. destruct A as [A|A]; [left; auto|right].
      apply in_app_iff in A as [A|A]; apply in_app_iff; auto. }
    destruct G7 as (l1 & l2 & C0 & C1 & C2). exists l1, (l2 ++ lc'). rewrite C0, <- !app_assoc. auto. }
  split; [exact G8|]. split.
  { rewrite G5, <- content_app, I5, F12, F13, F14. reflexivity. }
  assert (INC : incl (thead x :: la' ++ lc) (thead x :: la ++ mid ++ lc)).
  { intros a [A|A]; [left; auto|right]. apply in_app_iff in A as [A|A]; [apply I8 in A|]; rewrite !in_app_iff in *; tauto. }
  assert (FR : from m m2 (thead x :: l) (thead x :: la ++ mid ++ lc)).
  { intros a [A|A]; [left; left; auto|apply F19; auto]. }
  split.
  { eapply keeps_trans; [exact F18| |exact FR]. eapply keeps_trans; [exact I7| |apply from_refl; exact INC].
    split; [rewrite G10; apply le_n|]. intros a A N. apply G12. exact N. }
  intros a A. assert (Q : In a (thead x :: la ++ mid ++ lc)).
  { apply INC. right. apply in_app_iff in A as [A|A]; apply in_app_iff; auto. }
  destruct (FR a Q) as [W|W]; [auto|right]. pose proof (proj1 F18). lia.
Qed.
