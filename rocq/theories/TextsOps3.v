(** Buffers, Save, writers, readers and Open (for C32). *)
From Verif Require Import Base TextsModel TextsSpec TextsRing TextsLocal TextsOps.

(** ** A ring that is not closed yet *)
Definition chain (m : mem) (h : loc) (l : list loc) : Prop :=
  npath (nx m) (h :: l) /\ ppath (pv m) (h :: l) /\ NoDup (h :: l).
Lemma ring_chain : forall m h l, ring m h l -> chain m h l.
Proof.
  intros m h l (N & P & D). split; [|split; auto].
  - destruct (last_snoc_dec _ h l) as (xs & u & E & _). change (h :: l ++ [h]) with ((h :: l) ++ [h]) in N.
    rewrite E, <- app_assoc in N. cbn [app] in N. apply npath_app in N as [N _]. rewrite E. auto.
  - destruct (last_snoc_dec _ h l) as (xs & u & E & _). change (h :: l ++ [h]) with ((h :: l) ++ [h]) in P.
    rewrite E, <- app_assoc in P. cbn [app] in P. apply ppath_app in P as [P _]. rewrite E. auto.
Qed.
Lemma chain_close : forall m h l, chain m h l ->
  ring (set_pv (set_nx m (List.last l h) h) h (List.last l h)) h l.
Proof.
  intros m h l (N & P & D). destruct (last_snoc_dec _ h l) as (xs & u & E & U). rewrite <- U.
  split; [|split; auto]; cbn [nx pv set_nx set_pv]; change (h :: l ++ [h]) with ((h :: l) ++ [h]); rewrite E, <- app_assoc; cbn [app].
  - apply join_n; [rewrite <- E; auto|exact I| |intros []].
    rewrite E in D. apply NoDup_remove_2 in D. rewrite app_nil_r in D. auto.
  - apply join_p; [rewrite <- E; auto|exact I| |intros []].
    rewrite <- E. cbn [tl]. apply NoDup_cons_iff in D. tauto.
Qed.
Lemma chain_frame : forall m m' h l, chain m h l -> (forall a, In a (h :: l) -> nx m' a = nx m a /\ pv m' a = pv m a) -> chain m' h l.
Proof.
  intros m m' h l (N & P & D) F. split; [|split; auto].
  - eapply npath_ext; eauto. intros a A. apply F. apply in_removelast. auto.
  - eapply ppath_ext; eauto. intros a A. apply F. right. auto.
Qed.
Lemma close_frame : forall m h l a, ~ In a (h :: l) -> same_at m (set_pv (set_nx m (List.last l h) h) h (List.last l h)) a.
Proof.
  intros m h l a N. unfold same_at. cbn [nx pv bd set_nx set_pv]. rewrite !upd_neq; auto.
  - intros ->. apply N. left. auto.
  - intros ->. apply N. apply last_in.
Qed.
Lemma snoc_run : forall files n m dh dl b m', chain m dh dl -> below m dh dl -> runs_ok files n None m dl -> body_ok files n None b ->
  (forall a, nx m' a = upd (nx m) (List.last dl dh) (nxt m) a) ->
  (forall a, pv m' a = upd (pv m) (nxt m) (List.last dl dh) a) ->
  (forall a, bd m' a = upd (bd m) (nxt m) b a) -> nxt m' = S (nxt m) ->
  chain m' dh (dl ++ [nxt m]) /\ below m' dh (dl ++ [nxt m]) /\ runs_ok files n None m' (dl ++ [nxt m]) /\
  content files m' (dl ++ [nxt m]) = content files m dl ++ items files b /\
  total m' (dl ++ [nxt m]) = total m dl + len b /\ bd m' dh = bd m dh /\
  keeps m m' (dh :: dl) /\ from m m' (dh :: dl) (dl ++ [nxt m]).
Proof.
  intros files n m dh dl b m' (N & P & D) B O OB EN EP EB EX.
  assert (NP : ~ In (nxt m) (dh :: dl)) by (intros Q; specialize (B _ Q); lia).
  assert (BO : forall a, In a (dh :: dl) -> bd m' a = bd m a).
  { intros a A. rewrite EB. apply upd_neq. specialize (B a A). lia. }
  assert (BN : bd m' (nxt m) = b) by (rewrite EB; apply upd_eq).
  assert (BL : forall a, In a dl -> bd m' a = bd m a) by (intros; apply BO; right; auto).
  destruct (last_snoc_dec _ dh dl) as (xs & u & E & U). rewrite <- U in *.
  split; [|split; [|split; [|split; [|split; [|split; [|split]]]]]].
  - split; [|split].
    + eapply npath_ext with (f := upd (nx m) u (nxt m)); [|intros; apply EN].
      change (dh :: dl ++ [nxt m]) with ((dh :: dl) ++ [nxt m]). rewrite E, <- app_assoc. cbn [app].
      apply join_n; [rewrite <- E; auto|exact I| |intros []].
      rewrite E in D. apply NoDup_remove_2 in D. rewrite app_nil_r in D. auto.
    + eapply ppath_ext with (f := upd (pv m) (nxt m) u); [|intros; apply EP].
      change (dh :: dl ++ [nxt m]) with ((dh :: dl) ++ [nxt m]). rewrite E, <- app_assoc. cbn [app].
      apply join_p; [rewrite <- E; auto|exact I| |intros []].
      rewrite <- E. intros Q. apply NP. right. exact Q.
    + change (dh :: dl ++ [nxt m]) with ((dh :: dl) ++ [nxt m]). apply NoDup_rev in D.
      rewrite <- (rev_involutive ((dh :: dl) ++ [nxt m])). apply NoDup_rev. rewrite rev_app_distr. cbn [rev app] in *.
      constructor; auto. intros Q. apply NP. change (rev dl ++ [dh]) with (rev (dh :: dl)) in Q. apply in_rev in Q. exact Q.
  - intros a A. rewrite EX. destruct A as [A|A]; [specialize (B dh ltac:(left; auto)); lia|].
    apply in_app_iff in A as [A|[A|[]]]; [specialize (B a ltac:(right; auto)); lia|lia].
  - intros a A. apply in_app_iff in A as [A|[<-|[]]]; [rewrite BL by auto; auto|rewrite BN; auto].
  - rewrite content_app, (content_ext files m m' dl BL). cbn [content flat_map]. rewrite BN, app_nil_r. reflexivity.
  - rewrite total_app, (total_ext m m' dl BL). cbn [total]. unfold lenof. rewrite BN. lia.
  - apply BO. left. auto.
  - split; [lia|]. intros a A Q. unfold same_at. rewrite EN, EP, EB, !upd_neq; auto; try lia.
    intros ->. apply Q. rewrite E. apply in_app_iff. right. left. auto.
  - intros a A. apply in_app_iff in A as [A|[<-|[]]]; [left; right; auto|right; lia].
Qed.

Lemma Clone_eq : forall m u, Clone m u = new m (rebody None (bd m u)).
Proof. intros. unfold Clone, rebody. destruct (kd (bd m u)); reflexivity. Qed.

(** ** Copy *)
Lemma copy_loop_ok : forall files n sh dh s2 m s1 dl fuel, ring m sh (s1 ++ s2) -> runs_ok files n None m s2 ->
  below m sh (s1 ++ s2) -> chain m dh dl -> below m dh dl -> runs_ok files n None m dl ->
  disj (dh :: dl) (sh :: s1 ++ s2) -> (length s2 <= fuel)%nat ->
  exists m' dl', copy_loop fuel m (hd sh s2) (List.last dl dh) sh = Ok (m', List.last dl' dh) /\
    chain m' dh dl' /\ below m' dh dl' /\ runs_ok files n None m' dl' /\
    content files m' dl' = content files m dl ++ content files m s2 /\ total m' dl' = total m dl + total m s2 /\
    bd m' dh = bd m dh /\ keeps m m' (dh :: dl) /\ from m m' (dh :: dl) dl'.
Proof.
  intros files n sh dh. induction s2 as [|u s2 IH]; intros m s1 dl fuel R OS BS C B O DJ F.
  - exists m, dl. cbn [hd]. assert (E : copy_loop fuel m sh (List.last dl dh) sh = Ok (m, List.last dl dh))
      by (destruct fuel; cbn [copy_loop]; rewrite Nat.eqb_refl; auto).
    cbn [content flat_map total]. rewrite app_nil_r. conjs; [apply keeps_refl|apply from_refl; intros a A; right; auto].
  - destruct fuel as [|fuel]; [cbn in F; lia|]. cbn [hd copy_loop length] in *.
    pose proof R as (_ & _ & D). destruct (nodup_mid _ _ _ _ _ D) as (D1 & D2 & D3 & D4 & D5).
    apply Nat.eqb_neq in D1. rewrite D1, Clone_eq. cbn [new].
    match goal with |- context [copy_loop fuel ?M _ _ _] => set (m1 := M) end.
    destruct (rebody_ok files n None None (bd m u) (OS u ltac:(left; auto))) as (Q1 & Q2 & Q3).
    destruct (snoc_run files n m dh dl (rebody None (bd m u)) m1 C B O Q1) as (E1 & E2 & E3 & E4 & E5 & E6 & E7 & E8);
      try (intros a; reflexivity); [reflexivity|].
    assert (SM : forall a, In a (sh :: s1 ++ u :: s2) -> same_at m m1 a).
    { intros a A. apply E7; [apply BS; auto|]. intros Q. apply (DJ a Q A). }
    assert (R1 : ring m1 sh (s1 ++ u :: s2)) by (eapply ring_frame; [exact R|]; intros a A; destruct (SM a A) as (W1 & W2 & _); auto).
    assert (NU : nx m1 u = hd sh s2).
    { change (s1 ++ u :: s2) with (s1 ++ [u] ++ s2) in R1. rewrite app_assoc in R1.
      rewrite <- (ring_next _ _ _ _ R1), last_app1. reflexivity. }
    rewrite NU.
    assert (BX : forall a, In a s2 -> bd m1 a = bd m a).
    { intros a A. apply SM. right. apply in_app_iff. right. right. auto. }
    destruct (IH m1 (s1 ++ [u]) (dl ++ [nxt m]) fuel) as (m' & dl' & I1 & I2 & I3 & I4 & I5 & I6 & I7 & I8 & I9); auto.
    + rewrite <- app_assoc. exact R1.
    + eapply runs_ext; [|exact BX]. intros a A. apply OS. right. auto.
    + rewrite <- app_assoc. intros a A. specialize (BS a A). unfold m1. cbn [nxt set_nx set_pv]. lia.
    + rewrite <- app_assoc. intros a A Q. change (s1 ++ [u] ++ s2) with (s1 ++ u :: s2) in Q.
      destruct A as [A|A]; [apply (DJ a); [left; auto|auto]|].
      destruct (E8 a A) as [W|W]; [apply (DJ a W Q)|]. specialize (BS a Q). lia.
    + lia.
    + rewrite last_app1 in I1. exists m', dl'. split; [exact I1|]. conjs.
      * rewrite I5, E4, <- app_assoc, Q2, (content_ext files m m1 s2 BX). reflexivity.
      * rewrite I6, E5, Q3, (total_ext m m1 s2 BX). cbn [total]. unfold lenof. lia.
      * congruence.
      * eapply keeps_trans; [exact E7|exact I8|]. intros a [A|A]; [left; left; auto|apply E8; auto].
      * eapply from_trans; [|exact I9|apply E7|apply I8]. intros a [A|A]; [left; left; auto|apply E8; auto].
Qed.
Lemma Copy_ok : forall files n m SB sl DB dl, Bok files n m SB sl -> Bok files n m DB dl ->
  disj (bhead DB :: dl) (bhead SB :: sl) ->
  exists m' DB' dl', Copy m SB DB = Ok (m', DB') /\ bhead DB' = bhead DB /\ Bok files n m' DB' dl' /\
    content files m' dl' = content files m dl ++ content files m sl /\
    keeps m m' (bhead DB :: dl) /\ from m m' (bhead DB :: dl) dl'.
Proof.
  intros files n m SB sl DB dl (R1 & H1 & O1 & L1 & B1) (R2 & H2 & O2 & L2 & B2) DJ. unfold Copy.
  assert (NS : nx m (bhead SB) = hd (bhead SB) sl) by (apply (ring_next m (bhead SB) [] sl); exact R1).
  assert (PD : pv m (bhead DB) = List.last dl (bhead DB)).
  { apply (ring_prev m (bhead DB) dl []). rewrite app_nil_r. exact R2. }
  destruct (copy_loop_ok files n (bhead SB) (bhead DB) sl m [] dl (S (nxt m)) R1 O1 B1 (ring_chain _ _ _ R2) B2 O2 DJ)
    as (m' & dl' & I1 & I2 & I3 & I4 & I5 & I6 & I7 & I8 & I9).
  { pose proof (ring_length _ _ _ R1 B1). lia. }
  rewrite NS, PD, I1. cbn [bind].
  do 2 eexists. exists dl'. split; [reflexivity|]. split; [reflexivity|].
  split.
  { split; [exact (chain_close _ _ _ I2)|]. cbn [bhead blen]. split; [cbn [bd set_nx set_pv]; congruence|]. split; [exact I4|]. split; [|exact I3].
    cbn [blen]. rewrite L1, L2, <- I6. apply total_ext. reflexivity. }
  split; [rewrite <- I5; apply content_ext; reflexivity|]. split; [|exact I9].
  eapply keeps_trans; [exact I8| |].
  - split; [apply le_n|]. intros a A N. apply (close_frame m' (bhead DB) dl' a). exact N.
  - intros a [A|A]; [left; left; auto|apply I9; auto].
Qed.

(** ** Save *)
Lemma Find_tok : forall files n m t x l pos, Tok files n m t x l -> 0 <= pos ->
  exists p q off x', l = p ++ q /\
    Find m x pos = Ok (x', Z.min pos (total m l), (hd (thead x) q, total m p, off)) /\
    Z.min pos (total m l) = total m p + off /\ match q with [] => off = 0 | u :: _ => 0 <= off < lenof m u end /\
    Tok files n m t x' l /\ thead x' = thead x /\ tlen x' = tlen x.
Proof.
  intros files n m t x l pos T P. destruct (Find_ok _ _ _ _ _ _ _ T P) as (p & q & off & EL & EF & EP & OFF).
  exists p, q, off. eexists. split; [exact EL|]. split; [exact EF|]. split; [exact EP|]. split; [exact OFF|].
  destruct T as (R & H & O & L & B & _). split; [|auto].
  split; [exact R|]. split; [exact H|]. split; [exact O|]. split; [exact L|]. split; [exact B|].
  destruct q; [exists [], l; auto|exists p, (l0 :: q); auto].
Qed.
Lemma skipn_map : forall A B (f : A -> B) l k, skipn k (map f l) = map f (skipn k l).
Proof. intros A B f. induction l as [|a l IH]; intros [|k]; cbn; auto. Qed.
Lemma firstn_map' : forall A B (f : A -> B) l k, firstn k (map f l) = map f (firstn k l).
Proof. intros A B f. induction l as [|a l IH]; intros [|k]; cbn; auto. f_equal. apply IH. Qed.
Lemma sub_skip : forall l o n d, 0 <= o -> 0 <= d <= n -> skipn (Z.to_nat d) (sub l o n) = sub l (o + d) (n - d).
Proof.
  intros. unfold sub. rewrite Z2Nat.inj_add, Z2Nat.inj_sub by lia. rewrite <- skipn_skipn'.
  generalize (skipn (Z.to_nat o) l) as k. intros k. rewrite skipn_firstn_comm. reflexivity.
Qed.
Lemma advance_ok : forall files n b d, body_ok files n None b -> 0 <= d < len b ->
  body_ok files n None (advance b d) /\ items files (advance b d) = skipn (Z.to_nat d) (items files b) /\ len (advance b d) = len b - d.
Proof.
  intros files n b d (F & K) D. unfold advance, body_ok, items. destruct (kd b) as [|f o a|i c] eqn:E; [tauto| |].
  - cbn [kd set_kd set_len fnt col voff len]. conjs. rewrite skipn_map. f_equal. rewrite sub_skip by lia. reflexivity.
  - destruct K as [K1 K2]. rewrite E. replace d with 0 by lia. cbn [Z.to_nat skipn]. conjs.
Qed.
Lemma sub_first : forall l o n k, 0 <= k <= n -> firstn (Z.to_nat k) (sub l o n) = sub l o k.
Proof. intros. unfold sub. rewrite firstn_firstn. f_equal. lia. Qed.

Lemma save_loop_ok : forall files n t h dh r m p q dl fuel ud, ring m h (p ++ r ++ q) -> runs_ok files n (Some t) m r ->
  below m h (p ++ r ++ q) -> chain m dh dl -> below m dh dl -> runs_ok files n None m dl ->
  disj (dh :: dl) (h :: p ++ r ++ q) -> (length r <= fuel)%nat ->
  match r with [] => True | u :: _ => 0 <= ud < lenof m u end ->
  exists m' dl', save_loop fuel m (hd h (r ++ q)) (hd h q) (List.last dl dh) ud =
      Ok (m', List.last dl' dh, match r with [] => ud | _ => 0 end) /\
    chain m' dh dl' /\ below m' dh dl' /\ runs_ok files n None m' dl' /\
    content files m' dl' = content files m dl ++ skipn (match r with [] => 0 | _ => Z.to_nat ud end) (content files m r) /\
    total m' dl' = total m dl + (total m r - match r with [] => 0 | _ => ud end) /\
    bd m' dh = bd m dh /\ keeps m m' (dh :: dl) /\ from m m' (dh :: dl) dl'.
Proof.
  intros files n t h dh. induction r as [|u r IH]; intros m p q dl fuel ud R OS BS C B O DJ F U.
  - exists m, dl. cbn [app] in *. assert (E : save_loop fuel m (hd h q) (hd h q) (List.last dl dh) ud = Ok (m, List.last dl dh, ud))
      by (destruct fuel; cbn [save_loop]; rewrite Nat.eqb_refl; auto).
    cbn [content flat_map total skipn]. rewrite app_nil_r. conjs; [apply keeps_refl|apply from_refl; intros a A; right; auto].
  - destruct fuel as [|fuel]; [cbn in F; lia|]. cbn [app hd save_loop length] in *.
    pose proof R as (_ & _ & D). destruct (nodup_mid _ _ _ _ _ D) as (D1 & D2 & D3 & D4 & D5).
    assert (NV : u <> hd h q).
    { intros Q. pose proof (in_hd _ h q) as I. rewrite <- Q in I. destruct I as [I|I]; [congruence|]. apply D3. apply in_app_iff. auto. }
    apply Nat.eqb_neq in NV. rewrite NV, Clone_eq. cbn [new].
    match goal with |- context [save_loop fuel ?M _ _ _ _] => set (m1 := M) end.
    destruct (rebody_ok files n (Some t) None (bd m u) (OS u ltac:(left; auto))) as (Q1 & Q2 & Q3).
    destruct (advance_ok files n (rebody None (bd m u)) ud Q1) as (V1 & V2 & V3); [rewrite Q3; exact U|].
    destruct (snoc_run files n m dh dl (advance (rebody None (bd m u)) ud) m1 C B O V1) as (E1 & E2 & E3 & E4 & E5 & E6 & E7 & E8);
      try (intros a; reflexivity); [|reflexivity|].
    { intros a. unfold m1. cbn [bd set_nx set_pv set_bd]. rewrite upd_eq. unfold upd. destruct (Nat.eqb a (nxt m)); reflexivity. }
    assert (SM : forall a, In a (h :: p ++ u :: r ++ q) -> same_at m m1 a).
    { intros a A. apply E7; [apply BS; auto|]. intros Q. apply (DJ a Q A). }
    assert (R1 : ring m1 h (p ++ u :: r ++ q)) by (eapply ring_frame; [exact R|]; intros a A; destruct (SM a A) as (W1 & W2 & _); auto).
    assert (NU : nx m1 u = hd h (r ++ q)).
    { change (p ++ u :: r ++ q) with (p ++ [u] ++ r ++ q) in R1. rewrite app_assoc in R1.
      rewrite <- (ring_next _ _ _ _ R1), last_app1. reflexivity. }
    rewrite NU.
    assert (BX : forall a, In a r -> bd m1 a = bd m a).
    { intros a A. apply SM. right. apply in_app_iff. right. right. apply in_app_iff. auto. }
    assert (OR : runs_ok files n (Some t) m1 r) by (eapply runs_ext; [|exact BX]; intros a A; apply OS; right; auto).
    destruct (IH m1 (p ++ [u]) q (dl ++ [nxt m]) fuel 0) as (m' & dl' & I1 & I2 & I3 & I4 & I5 & I6 & I7 & I8 & I9); auto.
    + rewrite <- app_assoc. exact R1.
    + rewrite <- app_assoc. intros a A. specialize (BS a A). unfold m1. cbn [nxt set_nx set_pv set_bd]. lia.
    + rewrite <- app_assoc. intros a A Q. change (p ++ [u] ++ r ++ q) with (p ++ u :: r ++ q) in Q.
      destruct A as [A|A]; [apply (DJ a); [left; auto|auto]|].
      destruct (E8 a A) as [W|W]; [apply (DJ a W Q)|]. specialize (BS a Q). lia.
    + lia.
    + destruct r as [|u' r]; auto. split; [lia|]. apply (items_len files n (Some t)). apply OR. left. auto.
    + rewrite last_app1 in I1. exists m', dl'. split; [rewrite I1; destruct r; reflexivity|]. conjs.
      * rewrite I5, E4, V2, Q2, <- app_assoc. f_equal. cbn [content flat_map].
        change (flat_map (fun a : loc => items files (bd m a)) r) with (content files m r).
        rewrite (content_ext files m m1 r BX).
        replace (skipn (match r with [] => 0%nat | _ :: _ => Z.to_nat 0 end) (content files m r)) with (content files m r) by (destruct r; reflexivity).
        rewrite skipn_app. f_equal.
        pose proof (items_len files n (Some t) _ (OS u ltac:(left; auto))) as [QL _]. unfold lenof in U.
        replace (Z.to_nat ud - length (items files (bd m u)))%nat with 0%nat by lia. reflexivity.
      * rewrite I6, E5, V3, Q3, (total_ext m m1 r BX). cbn [total]. unfold lenof. destruct r; lia.
      * congruence.
      * eapply keeps_trans; [exact E7|exact I8|]. intros a [A|A]; [left; left; auto|apply E8; auto].
      * eapply from_trans; [|exact I9|apply E7|apply I8]. intros a [A|A]; [left; left; auto|apply E8; auto].
Qed.
Lemma firstn_app_le : forall A (l1 l2 : list A) k, (k <= length l1)%nat -> firstn k (l1 ++ l2) = firstn k l1.
Proof. intros. rewrite firstn_app. replace (k - length l1)%nat with 0%nat by lia. cbn. apply app_nil_r. Qed.
Lemma skipn_app_le : forall A (l1 l2 : list A) k, (k <= length l1)%nat -> skipn k (l1 ++ l2) = skipn k l1 ++ l2.
Proof. intros. rewrite skipn_app. replace (k - length l1)%nat with 0%nat by lia. reflexivity. Qed.
Lemma range_cut : forall A (p r v q : list A) (ud vd ud2 : nat) b e,
  b = (length p + ud)%nat -> e = (length p + length r + vd)%nat -> (vd <= length v)%nat ->
  (r = [] /\ ud2 = ud /\ (ud <= vd)%nat \/ ud2 = 0%nat /\ (ud <= length r)%nat) ->
  firstn (e - b) (skipn b (p ++ r ++ v ++ q)) =
  skipn (match r with [] => 0 | _ => ud end) r ++ firstn (vd - ud2) (skipn ud2 v).
Proof.
  intros A p r v q ud vd ud2 b e -> -> V H.
  replace (skipn (length p + ud) (p ++ r ++ v ++ q)) with (skipn ud (r ++ v ++ q)).
  2:{ rewrite <- skipn_skipn', (skipn_exact _ p (r ++ v ++ q)) by reflexivity. reflexivity. }
  destruct H as [(-> & -> & H)|(-> & H)].
  - cbn [app length skipn]. rewrite Nat.add_0_r. replace (length p + vd - (length p + ud))%nat with (vd - ud)%nat by lia.
    destruct (Nat.le_gt_cases ud (length v)) as [L|L]; [|lia].
    rewrite skipn_app_le by auto. apply firstn_app_le. rewrite skipn_length. lia.
  - rewrite skipn_app_le by auto.
    replace (length p + length r + vd - (length p + ud))%nat with (length (skipn ud r) + vd)%nat by (rewrite skipn_length; lia).
    rewrite firstn_app_2. cbn [skipn]. rewrite Nat.sub_0_r. f_equal; [|apply firstn_app_le; auto].
    destruct r; [destruct ud; reflexivity|reflexivity].
Qed.
Lemma clone_part : forall files n t b ud vd, body_ok files n (Some t) b -> 0 <= ud < vd -> vd < len b ->
  exists f o a, kd b = Piece f o a /\
  let b' := set_len (advance (rebody None b) ud) (vd - ud) in
  body_ok files n None b' /\ items files b' = firstn (Z.to_nat vd - Z.to_nat ud) (skipn (Z.to_nat ud) (items files b)) /\ len b' = vd - ud.
Proof.
  intros files n t b ud vd (F & K) H1 H2. destruct (kd b) as [|f o a|i c] eqn:E; [tauto| |lia].
  exists f, o, a. split; [reflexivity|]. cbv zeta. unfold rebody. rewrite E. unfold advance. rewrite E.
  cbn [kd set_kd set_len len fnt col voff]. split; [|split; [|reflexivity]].
  - split; [exact F|]. cbn [kd set_kd set_len len]. lia.
  - unfold items. rewrite E. cbn [kd set_kd set_len len fnt col voff].
    rewrite skipn_map, firstn_map', sub_skip by lia. f_equal. rewrite <- Z2Nat.inj_sub, sub_first by lia. reflexivity.
Qed.
Lemma Save_ok : forall files n m t x l B bl beg end_, Tok files n m t x l -> Bok files n m B bl ->
  disj (bhead B :: bl) (thead x :: l) -> 0 <= beg -> (beg < end_ \/ total m l <= beg <= end_) ->
  let b := Z.min beg (total m l) in let e := Z.min end_ (total m l) in
  exists m' x' B' bl', Save m x beg end_ B = Ok (m', x', B') /\ Tok files n m' t x' l /\ thead x' = thead x /\
    bhead B' = bhead B /\ Bok files n m' B' bl' /\ content files m' l = content files m l /\
    content files m' bl' = content files m bl ++ firstn (Z.to_nat e - Z.to_nat b) (skipn (Z.to_nat b) (content files m l)) /\
    keeps m m' (bhead B :: bl) /\ from m m' (bhead B :: bl) bl'.
Proof.
  intros files n m t x l B bl beg end_ T (RB & HB & OB & LB & BB) DJ P0 P1 b e.
  destruct (Find_tok files n m t x l beg T P0) as (p1 & q1 & ud & x1 & EL1 & F1 & F2 & F3 & T1 & F4 & F5).
  destruct (Find_tok files n m t x1 l end_ T1 ltac:(lia)) as (p2 & q2 & vd & x2 & EL2 & G1 & G2 & G3 & T2 & G4 & G5).
  fold b in F1, F2. fold e in G1, G2. rewrite F4 in G1, G4.
  set (h := thead x) in *. set (hb := bhead B) in *.
  pose proof T as (R & HH & O & L & BL & _). fold h in R, HH, BL.
  assert (BE : b <= e) by (unfold b, e; lia).
  assert (NNud : 0 <= ud) by (destruct q1; lia). assert (NNvd : 0 <= vd) by (destruct q2; lia).
  assert (PR : exists r, p2 = p1 ++ r).
  { destruct (prefix_cases _ p1 q1 p2 q2) as [Q|(v & r & Q1 & Q2)]; [congruence|exact Q|]. subst p1 q2.
    rewrite total_split in F2. cbn in G3.
    assert (OKr : runs_ok files n (Some t) m r).
    { intros a A. apply O. rewrite EL1. rewrite !in_app_iff. left. right. right. auto. }
    pose proof (total_nonneg _ _ _ _ _ OKr). lia. }
  destruct PR as (r & ->). rewrite <- app_assoc in EL2.
  assert (EQ : q1 = r ++ q2) by (apply (app_inv_head p1); congruence). subst q1.
  rewrite EL1 in R, BL, DJ.
  assert (Or : runs_ok files n (Some t) m r) by (intros a A; apply O; rewrite EL1, !in_app_iff; auto).
  assert (Op : runs_ok files n (Some t) m p1) by (intros a A; apply O; rewrite EL1, !in_app_iff; auto).
  assert (Oq : runs_ok files n (Some t) m q2) by (intros a A; apply O; rewrite EL1, !in_app_iff; auto).
  rewrite total_app in G2. pose proof (total_nonneg _ _ _ _ _ Or) as Zr. pose proof (total_nonneg _ _ _ _ _ Op) as Zp.
  pose proof (content_len _ _ _ _ _ Or) as CLr. pose proof (content_len _ _ _ _ _ Op) as CLp.
  assert (UD : match r with [] => True | u :: _ => 0 <= ud < lenof m u end) by (destruct r; [exact I|exact F3]).
  assert (PB : pv m hb = List.last bl hb).
  { apply (ring_prev m hb bl []). rewrite app_nil_r. exact RB. }
  destruct (save_loop_ok files n t h hb r m p1 q2 bl (S (nxt m)) ud R Or BL (ring_chain _ _ _ RB) BB OB DJ)
    as (m1 & dl & I1 & I2 & I3 & I4 & I5 & I6 & I7 & I8 & I9); [|exact UD|].
  { pose proof (ring_length _ _ _ R BL) as Q. rewrite !app_length in Q. lia. }
  unfold Save. rewrite F1. cbn [bind]. rewrite G1. cbn [bind]. fold hb. rewrite PB, I1. cbn [bind].
  set (ud2 := match r with [] => ud | _ :: _ => 0 end) in *.
  assert (SM1 : forall a, In a (h :: p1 ++ r ++ q2) -> same_at m m1 a).
  { intros a A. apply I8; [apply BL; auto|]. intros Q. apply (DJ a Q A). }
  assert (HUD : vd > 0 -> 0 <= ud2 < vd).
  { intros V. unfold ud2. destruct r; [|lia]. cbn [total] in *. split; [lia|]. destruct q2 as [|v q2]; [lia|].
    assert (total m l = total m p1 + lenof m v + total m q2) by (rewrite EL1; cbn [app]; apply total_split).
    assert (OKr : runs_ok files n (Some t) m q2) by (intros a A; apply Oq; right; auto).
    pose proof (total_nonneg _ _ _ _ _ OKr). unfold b, e in *. lia. }
  assert (CONT : vd <= Z.of_nat (length (match q2 with [] => [] | v :: _ => items files (bd m v) end)) ->
    firstn (Z.to_nat e - Z.to_nat b) (skipn (Z.to_nat b) (content files m l)) =
    skipn (match r with [] => 0%nat | _ :: _ => Z.to_nat ud end) (content files m r) ++
    firstn (Z.to_nat vd - Z.to_nat ud2) (skipn (Z.to_nat ud2) (match q2 with [] => [] | v :: _ => items files (bd m v) end))).
  { intros V. rewrite EL1, !content_app.
    replace (content files m q2) with ((match q2 with [] => [] | v :: _ => items files (bd m v) end) ++ content files m (tl q2)) by (destruct q2; reflexivity).
    rewrite (range_cut _ (content files m p1) (content files m r) _ (content files m (tl q2)) (Z.to_nat ud) (Z.to_nat vd) (Z.to_nat ud2) (Z.to_nat b) (Z.to_nat e)).
    - f_equal. destruct r as [|u r]; [reflexivity|].
      pose proof (items_len _ _ _ _ (Or u ltac:(left; auto))) as [W1 W2].
      destruct (content files m (u :: r)) eqn:EC; [|reflexivity]. cbn [content flat_map] in EC. apply app_eq_nil in EC as [EC _]. rewrite EC in W1. cbn in W1. lia.
    - lia.
    - lia.
    - lia.
    - unfold ud2. destruct r as [|u r].
      + left. split; [reflexivity|]. split; [reflexivity|]. cbn [total] in *. lia.
      + right. split; [reflexivity|]. assert (lenof m u <= total m (u :: r)).
        { assert (OKr : runs_ok files n (Some t) m r) by (intros a A; apply Or; right; auto).
          pose proof (total_nonneg _ _ _ _ _ OKr). cbn [total]. lia. }
        lia. }
  assert (FIN : forall m2 dl2, chain m2 hb dl2 -> below m2 hb dl2 -> runs_ok files n None m2 dl2 -> bd m2 hb = headrun 0 0 ->
     total m2 dl2 = total m bl + (e - b) ->
     content files m2 dl2 = content files m bl ++ firstn (Z.to_nat e - Z.to_nat b) (skipn (Z.to_nat b) (content files m l)) ->
     keeps m m2 (hb :: bl) -> from m m2 (hb :: bl) dl2 ->
     exists m' x' B' bl', Ok (set_pv (set_nx m2 (List.last dl2 hb) hb) hb (List.last dl2 hb), x2, {| blen := blen B + (e - b); bhead := hb |}) = Ok (m', x', B') /\ Tok files n m' t x' l /\ thead x' = h /\
    bhead B' = hb /\ Bok files n m' B' bl' /\ content files m' l = content files m l /\
    content files m' bl' = content files m bl ++ firstn (Z.to_nat e - Z.to_nat b) (skipn (Z.to_nat b) (content files m l)) /\
    keeps m m' (hb :: bl) /\ from m m' (hb :: bl) bl').
  { intros m2 dl2 K1 K2 K3 K4 K5 K6 K7 K8. set (m' := set_pv (set_nx m2 (List.last dl2 hb) hb) hb (List.last dl2 hb)).
    assert (KM : keeps m m' (hb :: bl)).
    { eapply keeps_trans; [exact K7| |].
      - split; [apply le_n|]. intros a A N. apply (close_frame m2 hb dl2 a). exact N.
      - intros a [A|A]; [left; left; auto|apply K8; auto]. }
    assert (SM : forall a, In a (thead x2 :: l) -> same_at m m' a).
    { rewrite G4. intros a A. rewrite EL1 in A. apply KM; [apply BL; auto|]. intros Q. apply (DJ a Q A). }
    destruct (Tok_frame files files n n m m' t x2 l T2 SM (proj1 KM) (grows_refl _ _)) as [TT CC].
    exists m', x2, {| blen := blen B + (e - b); bhead := hb |}, dl2. split; [reflexivity|]. split; [exact TT|]. split; [exact G4|].
    split; [reflexivity|]. split.
    { split; [exact (chain_close _ _ _ K1)|]. split; [exact K4|]. split; [exact K3|]. split; [|exact K2].
      cbn [blen]. rewrite LB, <- K5. apply total_ext. reflexivity. }
    split; [exact CC|]. split; [rewrite <- K6; apply content_ext; reflexivity|]. split; [exact KM|exact K8]. }
  destruct (vd >? 0) eqn:V.
  - destruct q2 as [|v q2]; [lia|]. cbn [hd] in *.
    assert (Iv : In v (h :: p1 ++ r ++ v :: q2)) by (right; rewrite !in_app_iff; right; right; left; auto).
    assert (BV : bd m1 v = bd m v) by (apply SM1; auto).
    destruct (clone_part files n t (bd m v) ud2 vd (Oq v ltac:(left; auto)) (HUD ltac:(lia)) ltac:(unfold lenof in G3; lia)) as (f & o & a & E1 & E2 & E3 & E4).
    cbv zeta in E2, E3, E4. rewrite <- BV in E1. rewrite E1, Clone_eq. cbn [new bind].
    match goal with |- context [set_pv (set_nx ?M _ hb) hb _] => set (m2 := M) end.
    set (bn := set_len (advance (rebody None (bd m1 v)) ud2) (vd - ud2)).
    destruct (snoc_run files n m1 hb dl bn m2 I2 I3 I4) as (J1 & J2 & J3 & J4 & J5 & J6 & J7 & J8);
      [unfold bn; rewrite BV; exact E2|intros; reflexivity|intros; reflexivity| |reflexivity|].
    { intros c. unfold m2. cbn [bd set_nx set_pv set_bd]. rewrite upd_eq. unfold upd. destruct (Nat.eqb c (nxt m1)); reflexivity. }
    pose proof (items_len _ _ _ _ (Oq v ltac:(left; auto))) as [IL _]. unfold lenof in G3.
    pose proof (FIN m2 (dl ++ [nxt m1])) as FF. rewrite last_app1 in FF. apply FF; auto; clear FF.
    + congruence.
    + rewrite J5, I6. unfold bn. rewrite BV, E4. unfold ud2 in *. destruct r; cbn [total] in *; lia.
    + rewrite J4, I5. rewrite CONT by lia. rewrite <- app_assoc. f_equal. f_equal. unfold bn. rewrite BV. exact E3.
    + eapply keeps_trans; [exact I8|exact J7|]. intros c [A|A]; [left; left; auto|apply I9; auto].
    + eapply from_trans; [|exact J8|apply I8|apply J7]. intros c [A|A]; [left; left; auto|apply I9; auto].
  - cbn [bind]. apply (FIN m1 dl); auto.
    + congruence.
    + rewrite I6. unfold ud2 in *. destruct r; cbn [total] in *; lia.
    + rewrite I5, CONT by lia. replace vd with 0 by lia. cbn [Z.to_nat Nat.sub firstn]. rewrite app_nil_r. reflexivity.
Qed.
