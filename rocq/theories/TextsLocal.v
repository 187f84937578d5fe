(** The operations on one text and one buffer: rings with their contents (for C32). *)
From Verif Require Import Base TextsModel TextsSpec TextsRing.

(** ** Contents *)
Definition sub (l : list Z) (o n : Z) : list Z := firstn (Z.to_nat n) (skipn (Z.to_nat o) l).
Definition items (files : nat -> list Z) (b : body) : list item :=
  match kd b with
  | Head => []
  | Piece f o a => map (fun c => char_item c (fnt b) (col b) (voff b) a) (sub (files f) o (len b))
  | Elem i _ => [elem_item i (fnt b) (col b) (voff b)]
  end.
Definition content (files : nat -> list Z) (m : mem) (l : list loc) : list item :=
  flat_map (fun a => items files (bd m a)) l.
Fixpoint total (m : mem) (l : list loc) : Z :=
  match l with [] => 0 | a :: l => lenof m a + total m l end.
Definition body_ok (files : nat -> list Z) (n : nat) (base : option nat) (b : body) : Prop :=
  (exists f, fnt b = Some f) /\
  match kd b with
  | Head => False
  | Piece f o _ => 0 < len b /\ 0 <= o /\ o + len b <= Z.of_nat (length (files f)) /\ (f < n)%nat
  | Elem _ x => len b = 1 /\ x = base
  end.
Definition runs_ok files n base (m : mem) (l : list loc) : Prop :=
  forall a, In a l -> body_ok files n base (bd m a).
Definition same_at (m m' : mem) (a : loc) : Prop := nx m' a = nx m a /\ pv m' a = pv m a /\ bd m' a = bd m a.

Lemma sub_len : forall l o n, 0 <= n -> 0 <= o -> o + n <= Z.of_nat (length l) -> length (sub l o n) = Z.to_nat n.
Proof. intros. unfold sub. rewrite firstn_length, skipn_length. lia. Qed.
Lemma skipn_skipn' : forall A (l : list A) x y, skipn x (skipn y l) = skipn (y + x) l.
Proof.
  induction l as [|a l IH]; intros x y; [rewrite !skipn_nil; reflexivity|].
  destruct y as [|y]; [reflexivity|]. cbn [skipn plus]. apply IH.
Qed.
Lemma firstn_plus : forall A (l : list A) x y, firstn (x + y) l = firstn x l ++ firstn y (skipn x l).
Proof.
  induction l as [|a l IH]; intros x y; [rewrite !firstn_nil, skipn_nil, firstn_nil; reflexivity|].
  destruct x as [|x]; [reflexivity|]. cbn [firstn skipn plus app]. f_equal. apply IH.
Qed.
Lemma sub_app : forall l o n k, 0 <= o -> 0 <= n -> 0 <= k -> sub l o (n + k) = sub l o n ++ sub l (o + n) k.
Proof.
  intros. unfold sub. rewrite !Z2Nat.inj_add by lia. rewrite firstn_plus, skipn_skipn'. reflexivity.
Qed.
Lemma sub_file_app : forall l e o n, 0 <= n -> 0 <= o -> o + n <= Z.of_nat (length l) -> sub (l ++ e) o n = sub l o n.
Proof.
  intros. unfold sub. rewrite skipn_app, firstn_app, skipn_length.
  replace (Z.to_nat n - (length l - Z.to_nat o))%nat with 0%nat by lia. cbn [firstn]. apply app_nil_r.
Qed.

Lemma items_len : forall files n base b, body_ok files n base b -> Z.of_nat (length (items files b)) = len b /\ 0 < len b.
Proof.
  intros files n base b (_ & H). unfold items. destruct (kd b) as [|f o a|i x]; [tauto| |].
  - destruct H as (H1 & H2 & H3 & _). rewrite map_length, sub_len; lia.
  - destruct H as [-> _]. cbn. lia.
Qed.
Lemma content_len : forall files n base m l, runs_ok files n base m l -> Z.of_nat (length (content files m l)) = total m l.
Proof.
  intros files n base m. induction l as [|a l IH]; intros H; [reflexivity|].
  cbn [content flat_map total]. rewrite app_length, Nat2Z.inj_add. f_equal.
  - apply (items_len files n base). apply H. left. auto.
  - apply IH. intros b B. apply H. right. auto.
Qed.
Lemma content_app : forall files m l1 l2, content files m (l1 ++ l2) = content files m l1 ++ content files m l2.
Proof. intros. unfold content. rewrite flat_map_concat_map, map_app, concat_app, <- !flat_map_concat_map. reflexivity. Qed.
Lemma total_app : forall m l1 l2, total m (l1 ++ l2) = total m l1 + total m l2.
Proof. intros m. induction l1; intros; cbn [app total]; [lia|rewrite IHl1; lia]. Qed.
Lemma runs_app : forall files n base m l1 l2, runs_ok files n base m (l1 ++ l2) <-> runs_ok files n base m l1 /\ runs_ok files n base m l2.
Proof.
  intros. unfold runs_ok. split.
  - intros H. split; intros; apply H; apply in_app_iff; auto.
  - intros [H1 H2] a A. apply in_app_iff in A as [A|A]; auto.
Qed.
Lemma total_nonneg : forall files n base m l, runs_ok files n base m l -> 0 <= total m l.
Proof. intros. pose proof (content_len files n base m l H). lia. Qed.
Lemma content_ext : forall files m m' l, (forall a, In a l -> bd m' a = bd m a) -> content files m' l = content files m l.
Proof.
  intros files m m'. induction l as [|a l IH]; intros H; [reflexivity|]. cbn [content flat_map]. rewrite H by (left; auto).
  f_equal. apply IH. intros b B. apply H. right. auto.
Qed.
Lemma total_ext : forall m m' l, (forall a, In a l -> bd m' a = bd m a) -> total m' l = total m l.
Proof.
  intros m m'. induction l as [|a l IH]; intros H; [reflexivity|]. cbn [total]. unfold lenof. rewrite H by (left; auto).
  f_equal. apply IH. intros b B. apply H. right. auto.
Qed.
Lemma runs_ext : forall files n base m m' l, runs_ok files n base m l -> (forall a, In a l -> bd m' a = bd m a) -> runs_ok files n base m' l.
Proof. intros files n base m m' l H E a A. rewrite E by auto. apply H; auto. Qed.

(** Files only grow. *)
Definition grows (files files' : nat -> list Z) (n n' : nat) : Prop :=
  (n <= n')%nat /\ forall f, (f < n)%nat -> exists e, files' f = files f ++ e.
Lemma body_grows : forall files files' n n' base b, grows files files' n n' -> body_ok files n base b ->
  body_ok files' n' base b /\ items files' b = items files b.
Proof.
  intros files files' n n' base b [G1 G2] [F H]. unfold body_ok, items. destruct (kd b) as [|f o a|i x]; [tauto| |auto].
  destruct H as (H1 & H2 & H3 & H4). destruct (G2 f H4) as (e & E). rewrite E, app_length. conjs.
  rewrite sub_file_app by lia. reflexivity.
Qed.

(** ** Texts and buffers in memory *)
Definition cache_in (m : mem) (x : text) (l : list loc) : Prop :=
  exists l1 l2, l = l1 ++ l2 /\ tcache x = List.last l1 (thead x) /\ tcorg x = total m l1.
Definition below (m : mem) (h : loc) (l : list loc) : Prop := forall a, In a (h :: l) -> (a < nxt m)%nat.
Definition Tok files n (m : mem) (t : nat) (x : text) (l : list loc) : Prop :=
  ring m (thead x) l /\ bd m (thead x) = headrun MAXL 15 /\ runs_ok files n (Some t) m l /\ tlen x = total m l /\
  below m (thead x) l /\ cache_in m x l.
Definition Bok files n (m : mem) (B : buffer) (l : list loc) : Prop :=
  ring m (bhead B) l /\ bd m (bhead B) = headrun 0 0 /\ runs_ok files n None m l /\ blen B = total m l /\
  below m (bhead B) l.
(** Only cells of [S] and fresh cells are changed. *)
Definition keeps (m m' : mem) (S : list loc) : Prop :=
  (nxt m <= nxt m')%nat /\ forall a, (a < nxt m)%nat -> ~ In a S -> same_at m m' a.
Definition from (m m' : mem) (S l : list loc) : Prop := forall a, In a l -> In a S \/ (nxt m <= a < nxt m')%nat.

Lemma keeps_refl : forall m S, keeps m m S.
Proof. intros. split; auto. intros. repeat split. Qed.
Lemma keeps_trans : forall m m' m'' S S', keeps m m' S -> keeps m' m'' S' -> from m m' S S' -> keeps m m'' S.
Proof.
  intros m m' m'' S S' [A1 A2] [B1 B2] F. split; [lia|]. intros a A N.
  destruct (A2 a A N) as (E1 & E2 & E3).
  assert (N' : ~ In a S') by (intros Q; destruct (F a Q); [contradiction|lia]).
  destruct (B2 a ltac:(lia) N') as (F1 & F2 & F3). repeat split; congruence.
Qed.
Lemma keeps_mono : forall m m' S S', keeps m m' S -> incl S S' -> keeps m m' S'.
Proof. intros m m' S S' [A B] I. split; auto. Qed.
Lemma from_trans : forall m m' m'' S S' l, from m m' S S' -> from m' m'' S' l -> (nxt m <= nxt m')%nat -> (nxt m' <= nxt m'')%nat ->
  from m m'' S l.
Proof. intros m m' m'' S S' l A B C D a I. destruct (B a I) as [Q|Q]; [destruct (A a Q); auto; right; lia|right; lia]. Qed.
Lemma from_refl : forall m m' S l, incl l S -> from m m' S l.
Proof. intros m m' S l I a A. left. auto. Qed.
Lemma from_app : forall m m' S l1 l2, from m m' S l1 -> from m m' S l2 -> from m m' S (l1 ++ l2).
Proof. intros m m' S l1 l2 A B a I. apply in_app_iff in I as [I|I]; auto. Qed.

Lemma nodup_bound : forall (l : list nat) n, NoDup l -> (forall a, In a l -> (a < n)%nat) -> (length l <= n)%nat.
Proof.
  intros l n H B. rewrite <- (seq_length n 0). apply NoDup_incl_length; auto.
  intros a A. apply in_seq. specialize (B a A). lia.
Qed.
Lemma ring_length : forall m h l, ring m h l -> below m h l -> (length l < nxt m)%nat.
Proof. intros m h l (_ & _ & D) B. exact (nodup_bound (h :: l) (nxt m) D B). Qed.

(** ** Find *)
Lemma forward_ok : forall files n base m h l2 l1 fuel k, ring m h (l1 ++ l2) -> runs_ok files n base m l2 ->
  0 <= k < total m l2 -> (length l2 <= fuel)%nat ->
  exists p u q k', l2 = p ++ u :: q /\ forward fuel m (hd h l2) k = Ok (u, k') /\ k = total m p + k' /\ 0 <= k' < lenof m u.
Proof.
  intros files n base m h. induction l2 as [|u l2 IH]; intros l1 fuel k R OK K F; [cbn in K; lia|].
  pose proof (items_len _ _ _ _ (OK u ltac:(left; auto))) as [_ P]. fold (lenof m u) in P.
  cbn [total] in K. cbn [hd]. cbn [length] in F.
  destruct (k >=? lenof m u) eqn:C.
  - destruct fuel as [|fuel]; [lia|]. cbn [forward]. rewrite C.
    assert (N : nx m u = hd h l2).
    { change (l1 ++ u :: l2) with (l1 ++ [u] ++ l2) in R. rewrite app_assoc in R.
      rewrite <- (ring_next _ _ _ _ R), last_app1. reflexivity. }
    rewrite N.
    destruct (IH (l1 ++ [u]) fuel (k - lenof m u)) as (p & u' & q & k' & E1 & E2 & E3 & E4).
    + rewrite <- app_assoc. exact R.
    + intros a A. apply OK. right. auto.
    + lia.
    + lia.
    + exists (u :: p), u', q, k'. rewrite E1. cbn [total app]. rewrite E1 in E2. conjs.
  - exists [], u, l2, k. assert (forward fuel m u k = Ok (u, k)) by (destruct fuel; cbn [forward]; rewrite C; auto).
    cbn [total app]. conjs.
Qed.
Lemma backward_ok : forall files n base m h l1 l2 fuel k, ring m h (l1 ++ l2) -> runs_ok files n base m l1 ->
  - total m l1 <= k < 0 -> (length l1 <= fuel)%nat ->
  exists p u q k', l1 = p ++ u :: q /\ backward fuel m (hd h l2) k = Ok (u, k') /\ total m l1 + k = total m p + k' /\ 0 <= k' < lenof m u.
Proof.
  intros files n base m h l1. induction l1 as [|u l1 IH] using rev_ind; intros l2 fuel k R OK K F; [cbn in K; lia|].
  pose proof (items_len _ _ _ _ (OK u ltac:(apply in_app_iff; right; left; auto))) as [_ P]. fold (lenof m u) in P.
  rewrite total_app in K. cbn [total] in K. rewrite app_length in F. cbn [length] in F.
  destruct fuel as [|fuel]; [lia|]. cbn [backward]. assert (C : k <? 0 = true) by lia. rewrite C.
  assert (N : pv m (hd h l2) = u) by (rewrite (ring_prev _ _ _ _ R), last_app1; reflexivity). rewrite N.
  destruct (k + lenof m u <? 0) eqn:C2.
  - destruct (IH (u :: l2) fuel (k + lenof m u)) as (p & u' & q & k' & E1 & E2 & E3 & E4).
    + rewrite <- app_assoc in R. exact R.
    + intros a A. apply OK. apply in_app_iff. auto.
    + lia.
    + lia.
    + exists p, u', (q ++ [u]), k'. cbn [hd] in E2. rewrite total_app. cbn [total]. conjs. rewrite E1, <- app_assoc. reflexivity.
  - exists l1, u, [], (k + lenof m u).
    assert (backward fuel m u (k + lenof m u) = Ok (u, k + lenof m u)) by (destruct fuel; cbn [backward]; rewrite C2; auto).
    rewrite total_app. cbn [total]. conjs.
Qed.
Lemma total_split : forall m p u q, total m (p ++ u :: q) = total m p + lenof m u + total m q.
Proof. intros. rewrite total_app. cbn [total]. lia. Qed.
Lemma Find_ok : forall files n m t x l pos, Tok files n m t x l -> 0 <= pos ->
  exists p q off, l = p ++ q /\
    Find m x pos = Ok (set_cache x (match q with [] => thead x | _ => List.last p (thead x) end)
                                   (match q with [] => 0 | _ => total m p end),
                       Z.min pos (total m l), (hd (thead x) q, total m p, off)) /\
    Z.min pos (total m l) = total m p + off /\
    match q with [] => off = 0 | u :: _ => 0 <= off < lenof m u end.
Proof.
  intros files n m t x l pos (R & HB & OK & TL & BL & (l1 & l2 & EL & C1 & C2)) P. unfold Find. rewrite TL.
  destruct (pos >=? total m l) eqn:G.
  - exists l, [], 0. rewrite app_nil_r. cbn [hd]. conjs.
    replace (Z.min pos (total m l)) with (total m l) by lia. reflexivity.
  - pose proof (ring_length _ _ _ R BL) as LB. rewrite EL in LB. rewrite app_length in LB.
    subst l. apply runs_app in OK as [O1 O2]. rewrite total_app in *.
    rewrite C1, C2, (ring_next _ _ _ _ R).
    pose proof (total_nonneg _ _ _ _ _ O1) as T1.
    assert (HH : exists p u q k', l1 ++ l2 = p ++ u :: q /\
      (if pos >=? total m l1 then forward (S (nxt m)) m (hd (thead x) l2) (pos - total m l1)
       else backward (S (nxt m)) m (hd (thead x) l2) (pos - total m l1)) = Ok (u, k') /\
      pos = total m p + k' /\ 0 <= k' < lenof m u).
    { destruct (pos >=? total m l1) eqn:G2.
      - destruct (forward_ok _ _ _ m (thead x) l2 l1 (S (nxt m)) (pos - total m l1) R O2 ltac:(lia) ltac:(lia))
          as (p & u & q & k' & E1 & E2 & E3 & E4).
        exists (l1 ++ p), u, q, k'. rewrite E1 at 1. rewrite <- app_assoc, total_app. conjs.
      - destruct (backward_ok _ _ _ m (thead x) l1 l2 (S (nxt m)) (pos - total m l1) R O1 ltac:(lia) ltac:(lia))
          as (p & u & q & k' & E1 & E2 & E3 & E4).
        exists p, u, (q ++ l2), k'. rewrite E1 at 1. rewrite <- app_assoc. conjs. }
    destruct HH as (p & u & q & k' & E1 & E2 & E3 & E4). rewrite E2. cbn [bind].
    exists p, (u :: q), k'. rewrite E1 in R.
    pose proof (ring_prev _ _ _ _ R) as PV. cbn [hd] in *. rewrite PV.
    replace (Z.min pos (total m l1 + total m l2)) with pos by lia.
    replace (pos - k') with (total m p) by lia. conjs.
Qed.

(** ** Split *)
Lemma ring_insert' : forall m m' h l1 l2 X x0 X', ring m h (l1 ++ l2) ->
  X = x0 :: X' -> npath (nx m) X -> ppath (pv m) X -> NoDup X ->
  (forall a, In a X -> ~ In a (h :: l1 ++ l2)) ->
  (forall a, In a (h :: l1 ++ X ++ l2) -> nx m' a = upd (upd (nx m) (List.last l1 h) x0) (List.last X' x0) (hd h l2) a) ->
  (forall a, In a (h :: l1 ++ X ++ l2) -> pv m' a = upd (upd (pv m) x0 (List.last l1 h)) (hd h l2) (List.last X' x0) a) ->
  ring m' h (l1 ++ X ++ l2).
Proof.
  intros m m' h l1 l2 X x0 X' R EX N P D DJ E1 E2.
  apply ring_frame with (m := {| nx := upd (upd (nx m) (List.last l1 h) x0) (List.last X' x0) (hd h l2);
    pv := upd (upd (pv m) x0 (List.last l1 h)) (hd h l2) (List.last X' x0); bd := bd m; nxt := nxt m |}).
  - eapply ring_insert; eauto.
  - intros a A. cbn [nx pv]. auto.
Qed.
Ltac updq := unfold upd in *; repeat match goal with
  | H : context [Nat.eqb ?a ?b] |- _ => destruct (Nat.eqb_spec a b)
  | |- context [Nat.eqb ?a ?b] => destruct (Nat.eqb_spec a b) end.
Lemma upd_swap : forall A (f : nat -> A) a b x y c, a <> b -> upd (upd f a x) b y c = upd (upd f b y) a x c.
Proof. intros. updq; congruence. Qed.
Lemma prefix_cases : forall A (a b p q : list A), a ++ b = p ++ q ->
  (exists r, p = a ++ r) \/ (exists u r, a = p ++ u :: r /\ q = u :: r ++ b).
Proof.
  intros A. induction a as [|x a IH]; intros b p q E; [left; exists p; reflexivity|].
  destruct p as [|y p].
  - right. exists x, a. cbn in E. auto.
  - cbn in E. injection E as -> E. destruct (IH _ _ _ E) as [[r ->]|(u & r & -> & ->)].
    + left. exists r. reflexivity.
    + right. exists u, r. auto.
Qed.
Lemma last_def : forall A (l : list A) a h h', List.last (l ++ [a]) h = List.last (l ++ [a]) h'.
Proof. intros. rewrite !last_app1. reflexivity. Qed.
Lemma in_hd : forall A (h : A) q, In (hd h q) (h :: q).
Proof. intros. destruct q; cbn; auto. Qed.
Lemma nodup_mid : forall A (h : A) p u q, NoDup (h :: p ++ u :: q) -> u <> h /\ ~ In u p /\ ~ In u q /\ ~ In h p /\ ~ In h q.
Proof.
  intros A h p u q D. apply NoDup_cons_iff in D as [D1 D2]. rewrite in_app_iff in D1.
  apply NoDup_remove_2 in D2. rewrite in_app_iff in D2.
  repeat split; try tauto. intros ->. apply D1. right. left. auto. intros H. apply D1. right. right. auto.
Qed.
Lemma firstn_exact : forall A (l1 l2 : list A) n, n = length l1 -> firstn n (l1 ++ l2) = l1.
Proof. intros. subst. rewrite firstn_app, Nat.sub_diag, firstn_all. cbn. apply app_nil_r. Qed.
Lemma skipn_exact : forall A (l1 l2 : list A) n, n = length l1 -> skipn n (l1 ++ l2) = l2.
Proof. intros. subst. rewrite skipn_app, Nat.sub_diag, skipn_all. reflexivity. Qed.
(** Contents on both sides of a cut. *)
Lemma content_cut : forall files n base m m' l la lb, runs_ok files n base m' la ->
  content files m' (la ++ lb) = content files m l ->
  content files m' la = firstn (Z.to_nat (total m' la)) (content files m l) /\
  content files m' lb = skipn (Z.to_nat (total m' la)) (content files m l).
Proof.
  intros files n base m m' l la lb R E. rewrite <- E, content_app.
  pose proof (content_len _ _ _ _ _ R).
  rewrite firstn_exact, skipn_exact by lia. auto.
Qed.

Lemma find_split : forall files n m t x l pos, Tok files n m t x l -> 0 <= pos ->
  exists x' pos' u org off m' la lb,
    Find m x pos = Ok (x', pos', (u, org, off)) /\ pos' = Z.min pos (total m l) /\
    Split m off u = Ok (m', List.last la (thead x), hd (thead x) lb) /\
    thead x' = thead x /\ Tok files n m' t x' (la ++ lb) /\ cache_in m' x' la /\
    total m' la = pos' /\ content files m' (la ++ lb) = content files m l /\
    total m' (la ++ lb) = total m l /\
    keeps m m' (thead x :: l) /\ from m m' (thead x :: l) (la ++ lb) /\
    (forall a0 b0, l = a0 ++ b0 -> total m a0 <= pos' ->
       exists mid, la = a0 ++ mid /\ hd (thead x) (mid ++ lb) = hd (thead x) b0 /\ forall a, In a a0 -> bd m' a = bd m a).
Proof.
  intros files n m t x l pos T P.
  destruct (Find_ok _ _ _ _ _ _ _ T P) as (p & q & off & EL & EF & EP & OFF).
  destruct T as (R & HB & OK & TL & BL & _). set (h := thead x) in *.
  rewrite EF. destruct (Z.eq_dec off 0) as [->|NZ].
  - do 5 eexists. exists m, p, q. split; [reflexivity|].
    assert (TP : total m p = Z.min pos (total m l)) by lia.
    rewrite <- EL.
    assert (CI : cache_in m (set_cache x (match q with [] => h | _ :: _ => List.last p h end)
                                          (match q with [] => 0 | _ :: _ => total m p end)) p).
    { destruct q; [exists [], p; auto|exists p, []; rewrite app_nil_r; auto]. }
    split; [reflexivity|]. split.
    { unfold Split. cbn [Z.eqb]. rewrite EL in R. rewrite (ring_prev _ _ _ _ R). reflexivity. }
    split; [reflexivity|]. split.
    { split; [exact R|]. split; [exact HB|]. split; [exact OK|]. split; [exact TL|]. split; [exact BL|].
      destruct CI as (l1 & l2 & C0 & C1 & C2). exists l1, (l2 ++ q). rewrite app_assoc, <- C0. auto. }
    split; [exact CI|]. split; [exact TP|]. split; [reflexivity|]. split; [reflexivity|]. split; [apply keeps_refl|].
    split; [apply from_refl; intros a A; right; exact A|].
    intros a0 b0 E0 LE. rewrite EL in E0. symmetry in E0. destruct (prefix_cases _ _ _ _ _ E0) as [[r Er]|(u & r & Er & Eq)].
    + exists r. split; auto. split; auto. rewrite Er, <- app_assoc in E0. apply app_inv_head in E0. congruence.
    + subst a0 q. rewrite total_split in LE. rewrite <- TP in LE.
      assert (OKr : runs_ok files n (Some t) m r).
      { intros a A. apply OK. rewrite EL. apply in_app_iff. right. right. apply in_app_iff. auto. }
      pose proof (total_nonneg _ _ _ _ _ OKr). lia.
  - destruct q as [|u q]; [lia|]. cbn [hd] in *.
    assert (Iu : In u l) by (rewrite EL; apply in_app_iff; right; left; auto).
    destruct (OK u Iu) as [FN KD]. unfold lenof in OFF.
    destruct (kd (bd m u)) as [|f o a|i b] eqn:EK; [tauto| |lia].
    destruct KD as (K1 & K2 & K3 & K4).
    rewrite EL in R. pose proof R as (_ & _ & D). destruct (nodup_mid _ _ _ _ _ D) as (D1 & D2 & D3 & D4 & D5).
    assert (Lu : (u < nxt m)%nat) by (apply BL; right; auto).
    assert (Lh : (h < nxt m)%nat) by (apply BL; left; auto).
    assert (NU : nx m u = hd h q).
    { change (p ++ u :: q) with (p ++ [u] ++ q) in R. rewrite app_assoc in R.
      rewrite <- (ring_next _ _ _ _ R), last_app1. reflexivity. }
    set (bu := set_len (bd m u) off).
    set (bp := set_kd (set_len (bd m u) (len (bd m u) - off)) (Piece f (o + off) a)).
    set (m' := {| nx := upd (upd (nx m) (nxt m) (nx m u)) u (nxt m);
                  pv := upd (upd (pv m) (nxt m) u) (nx m u) (nxt m);
                  bd := upd (upd (bd m) (nxt m) bp) u bu; nxt := S (nxt m) |}).
    assert (SP : Split m off u = Ok (m', u, nxt m)).
    { unfold Split. assert (Z0 : off =? 0 = false) by lia. rewrite Z0. unfold lenof at 1.
      assert (Z1 : off >=? len (bd m u) = false) by lia. rewrite Z1, EK. cbn [new].
      unfold lenof. cbn [bd nx pv set_bd set_pv set_nx]. rewrite !upd_neq by lia. rewrite !upd_eq.
      cbn [len set_kd set_len bp]. replace (len (bd m u) - (len (bd m u) - off)) with off by lia. reflexivity. }
    do 5 eexists. exists m', (p ++ [u]), (nxt m :: q). split; [reflexivity|]. split; [reflexivity|].
    rewrite last_app1. split; [exact SP|]. split; [reflexivity|].
    assert (LT : forall c, In c (p ++ u :: q) -> (c < nxt m)%nat) by (intros c C; apply BL; right; rewrite EL; auto).
    assert (R' : ring m' h ((p ++ [u]) ++ [nxt m] ++ q)).
    { apply ring_insert' with (m := m) (x0 := nxt m) (X' := []).
      - rewrite <- app_assoc. exact R.
      - reflexivity.
      - exact I.
      - exact I.
      - constructor; [intros []|constructor].
      - intros c [<-|[]] C. rewrite <- app_assoc in C. destruct C as [C|C]; [lia|]. apply LT in C. lia.
      - intros c C. cbn [List.last]. rewrite last_app1. cbn [nx m']. rewrite NU. apply upd_swap. lia.
      - intros c C. cbn [List.last]. rewrite last_app1. cbn [pv m']. rewrite NU. reflexivity. }
    assert (BDo : forall c, c <> u -> (c < nxt m)%nat -> bd m' c = bd m c).
    { intros c C1 C2. cbn [bd m']. rewrite !upd_neq by lia. reflexivity. }
    assert (BDu : bd m' u = bu) by (cbn [bd m']; apply upd_eq).
    assert (BDp : bd m' (nxt m) = bp) by (cbn [bd m']; rewrite upd_neq, upd_eq by lia; reflexivity).
    assert (BDP : forall c, In c p -> bd m' c = bd m c).
    { intros c C. apply BDo; [intros ->; auto|apply LT; apply in_app_iff; auto]. }
    assert (BDQ : forall c, In c q -> bd m' c = bd m c).
    { intros c C. apply BDo; [intros ->; auto|apply LT; apply in_app_iff; right; right; auto]. }
    assert (TT : total m' (p ++ [u]) = Z.min pos (total m l)).
    { rewrite total_app, (total_ext m m' p BDP). cbn [total]. unfold lenof. rewrite BDu. cbn [len bu set_len]. lia. }
    assert (CI : cache_in m' (set_cache x (List.last p h) (total m p)) (p ++ [u])).
    { exists p, [u]. cbn [tcache tcorg set_cache thead]. rewrite (total_ext m m' p BDP). auto. }
    assert (TA : total m' ((p ++ [u]) ++ nxt m :: q) = total m l).
    { rewrite total_app, TT, EP, EL. cbn [total]. rewrite (total_ext m m' q BDQ), total_split. unfold lenof.
      rewrite BDp. cbn [len bp set_kd set_len]. lia. }
    split.
    { split; [exact R'|]. split; [rewrite <- HB; apply BDo; auto|]. split.
      { intros c C. rewrite <- app_assoc in C. apply in_app_iff in C as [C|[C|[C|C]]].
        - rewrite BDP by auto. apply OK. rewrite EL. apply in_app_iff. auto.
        - subst c. rewrite BDu. split; [exact FN|]. cbn [kd bu set_len len]. rewrite EK. lia.
        - subst c. rewrite BDp. split; [exact FN|]. cbn [kd bp set_len set_kd len]. lia.
        - rewrite BDQ by auto. apply OK. rewrite EL. apply in_app_iff. right. right. auto. }
      split; [cbn [tlen set_cache]; rewrite TA; exact TL|]. split.
      { intros c C. cbn [nxt m']. rewrite <- app_assoc in C. cbn [thead set_cache] in C. destruct C as [C|C]; [fold h in C; lia|].
        apply in_app_iff in C as [C|[C|[C|C]]]; try lia; apply Nat.lt_lt_succ_r; apply LT; apply in_app_iff; auto.
        right. right. auto. }
      destruct CI as (l1 & l2 & C0 & C1 & C2). exists l1, (l2 ++ nxt m :: q). rewrite app_assoc, <- C0. auto. }
    split; [exact CI|]. split; [exact TT|]. split.
    { rewrite <- app_assoc, EL, !content_app. rewrite (content_ext files m m' p BDP). f_equal. cbn [app].
      cbn [content flat_map]. rewrite BDu, BDp. change (flat_map (fun a1 : loc => items files (bd m' a1)) q) with (content files m' q).
      rewrite (content_ext files m m' q BDQ), app_assoc. f_equal.
      unfold items. cbn [kd bu bp set_len set_kd len fnt col voff]. rewrite EK, app_nil_r, <- map_app.
      rewrite <- sub_app by lia. f_equal. f_equal. lia. }
    split; [exact TA|]. split.
    { split; [cbn [nxt m']; lia|]. intros c C N. assert (c <> u) by (intros ->; apply N; right; auto).
      assert (c <> nx m u).
      { rewrite NU. intros E. apply N. pose proof (in_hd _ h q) as Q. rewrite <- E in Q. destruct Q as [Q|Q]; [left; auto|].
        right. rewrite EL. apply in_app_iff. right. right. auto. }
      unfold same_at. cbn [nx pv bd m']. rewrite !upd_neq by lia. auto. }
    split.
    { intros c C. rewrite <- app_assoc in C. apply in_app_iff in C as [C|[C|[C|C]]].
      - left. right. rewrite EL. apply in_app_iff. auto.
      - left. right. subst c. auto.
      - right. subst c. cbn [nxt m']. lia.
      - left. right. rewrite EL. apply in_app_iff. right. right. auto. }
    intros a0 b0 E0 LE. rewrite EL in E0. symmetry in E0. destruct (prefix_cases _ _ _ _ _ E0) as [[r Er]|(u' & r & Er & Eq)].
    + exists (r ++ [u]). rewrite Er, <- app_assoc. split; auto. split.
      { rewrite Er, <- app_assoc in E0. apply app_inv_head in E0. subst b0. destruct r; reflexivity. }
      intros c C. apply BDP. rewrite Er. apply in_app_iff. auto.
    + injection Eq as <- ->. subst a0. rewrite total_split in LE.
      assert (OKr : runs_ok files n (Some t) m r).
      { intros c C. apply OK. rewrite EL. apply in_app_iff. right. right. apply in_app_iff. auto. }
      pose proof (total_nonneg _ _ _ _ _ OKr). unfold lenof in LE. lia.
Qed.

(** ** Merge *)
Definition merged (m : mem) (u v : loc) : body := set_len (bd m u) (lenof m u + lenof m v).
Definition recache (m : mem) (x : text) (u v : loc) : text :=
  if Nat.eqb (tcache x) u then set_cache x (tcache x) (tcorg x + lenof m v)
  else if Nat.eqb (tcache x) v then set_cache x (thead x) 0 else x.
Lemma Merge_ok : forall files n b1 b2 m x u v,
  kd (bd m u) = Head \/ body_ok files n b1 (bd m u) ->
  kd (bd m v) = Head \/ body_ok files n b2 (bd m v) ->
  Merge m x u v = Ok (m, x, v) \/
  Merge m x u v = Ok (set_bd m u (merged m u v), recache m x u v, nx m v) /\
  kd (bd m u) <> Head /\ kd (bd m v) <> Head /\
  items files (merged m u v) = items files (bd m u) ++ items files (bd m v) /\
  body_ok files n b1 (merged m u v).
Proof.
  intros files n b1 b2 m x u v [H1|H1] H2; [left; unfold Merge; rewrite H1; reflexivity|].
  destruct H2 as [H2|H2]; [left; unfold Merge; rewrite H2; destruct (kd (bd m u)); reflexivity|].
  destruct H1 as ((fu & F1) & K1). destruct H2 as ((fv & F2) & K2). unfold Merge.
  destruct (kd (bd m u)) as [|f o a|i b] eqn:EU; [left; reflexivity| |left; reflexivity].
  destruct (kd (bd m v)) as [|f' o' a'|i b] eqn:EV; [left; reflexivity| |left; reflexivity].
  rewrite F1, F2. cbn [same_name bind].
  destruct (list_eq_dec Z.eq_dec fu fv) as [->|]; [|left; reflexivity].
  destruct (col (bd m u) =? col (bd m v)) eqn:C1; [|left; reflexivity].
  destruct (voff (bd m u) =? voff (bd m v)) eqn:C2; [|left; reflexivity].
  destruct (Bool.eqb a a') eqn:C3; [|left; reflexivity]. cbn [andb].
  destruct (Nat.eqb f f') eqn:C4; [|left; reflexivity].
  destruct (o + lenof m u =? o') eqn:C5; [|left; reflexivity]. cbn [andb].
  right. split; [reflexivity|]. split; [discriminate|]. split; [discriminate|].
  apply Z.eqb_eq in C1, C2, C5. apply Bool.eqb_prop in C3. apply Nat.eqb_eq in C4. subst a' f' o'.
  unfold lenof in *. split.
  - unfold items, merged, lenof. cbn [kd set_len fnt col voff len]. rewrite EU, EV, F1, F2, C1, C2, <- map_app.
    f_equal. apply sub_app; lia.
  - split; [exists fv; exact F1|]. unfold merged, lenof. cbn [kd set_len len]. rewrite EU. lia.
Qed.
Lemma cache_ext : forall m m' x l, cache_in m x l -> (forall a, In a l -> bd m' a = bd m a) -> cache_in m' x l.
Proof.
  intros m m' x l (l1 & l2 & E & C1 & C2) H. exists l1, l2. rewrite (total_ext m m' l1); auto.
  intros a A. apply H. rewrite E. apply in_app_iff. auto.
Qed.
Lemma last_app' : forall A (l1 l2 : list A) h, List.last (l1 ++ l2) h = List.last l2 (List.last l1 h).
Proof.
  intros A l1 l2. revert l1. induction l2 as [|a l2 IH] using rev_ind; intros l1 h; [rewrite app_nil_r; reflexivity|].
  rewrite app_assoc, !last_app1. reflexivity.
Qed.
Lemma recache_head : forall m x u v, thead (recache m x u v) = thead x /\ tlen (recache m x u v) = tlen x.
Proof. intros. unfold recache. destruct (Nat.eqb _ _); [auto|]. destruct (Nat.eqb _ _); auto. Qed.
(** The cache after a merge at the end of [la ++ [u]]. *)
Lemma cache_merge : forall m m' x la u v, cache_in m x (la ++ [u]) -> NoDup (thead x :: la ++ [u]) ->
  ~ In v (thead x :: la ++ [u]) ->
  (forall a, In a la -> bd m' a = bd m a) -> bd m' u = merged m u v ->
  cache_in m' (recache m x u v) (la ++ [u]).
Proof.
  intros m m' x la u v (l1 & l2 & E & C1 & C2) D NV BO BU.
  assert (NC : tcache x <> v).
  { intros Q. apply NV. rewrite <- Q, C1. pose proof (last_in _ (thead x) l1) as [Q1|Q1]; [left; auto|right; rewrite E; apply in_app_iff; auto]. }
  unfold recache. destruct l2 as [|c l2] using rev_ind.
  - rewrite app_nil_r in E. subst l1. rewrite last_app1 in C1. rewrite C1, Nat.eqb_refl.
    exists (la ++ [u]), []. rewrite app_nil_r. cbn [tcache tcorg thead set_cache]. split; [reflexivity|].
    rewrite last_app1. split; [congruence|]. rewrite C2, !total_app, (total_ext m m' la BO). cbn [total].
    unfold lenof at 3. rewrite BU. cbn [merged set_len len]. lia.
  - clear IHl2. rewrite app_assoc in E. apply app_inj_tail in E as [-> <-].
    assert (NU : tcache x <> u).
    { intros Q. rewrite C1 in Q. pose proof (last_in _ (thead x) l1) as I. rewrite Q in I.
      apply nodup_mid in D as (D1 & D2 & _). destruct I as [I|I]; [congruence|]. apply D2. apply in_app_iff. auto. }
    apply Nat.eqb_neq in NU, NC. rewrite NU, NC. exists l1, (l2 ++ [u]). rewrite app_assoc. split; [auto|]. split; [auto|].
    rewrite C2. symmetry. apply total_ext. intros a A. apply BO. apply in_app_iff. auto.
Qed.

(** ** Splice *)
Definition rebody (base : option nat) (b : body) : body :=
  match kd b with Elem i _ => set_kd b (Elem i base) | _ => b end.
Lemma rebody_ok : forall files n b0 base b, body_ok files n b0 b ->
  body_ok files n base (rebody base b) /\ items files (rebody base b) = items files b /\ len (rebody base b) = len b.
Proof.
  intros files n b0 base b (F & K). unfold rebody, body_ok, items. destruct (kd b) as [|f o a|i c] eqn:E.
  - tauto.
  - rewrite E. auto.
  - cbn [kd set_kd fnt len col voff]. tauto.
Qed.
Lemma rebody_idem : forall b x y, rebody x (rebody y b) = rebody x b.
Proof. intros b x y. unfold rebody. destruct (kd b) as [|f o a|i c] eqn:E; [rewrite E; auto|rewrite E; auto|reflexivity]. Qed.

Lemma rebase_ok : forall base un X fuel m, X <> [] -> npath (nx m) (X ++ [un]) -> ~ In un X -> NoDup X ->
  (length X <= fuel)%nat ->
  exists m', rebase fuel m (hd un X) un base = Ok m' /\ nx m' = nx m /\ pv m' = pv m /\ nxt m' = nxt m /\
    (forall a, ~ In a X -> bd m' a = bd m a) /\ (forall a, In a X -> bd m' a = rebody base (bd m a)).
Proof.
  intros base un. induction X as [|v X IH]; intros fuel m NE N NI D F; [congruence|].
  destruct fuel as [|fuel]; [cbn in F; lia|]. cbn [rebase hd].
  set (m1 := match kd (bd m v) with Elem i _ => set_bd m v (set_kd (bd m v) (Elem i base)) | _ => m end).
  assert (E1 : nx m1 = nx m /\ pv m1 = pv m /\ nxt m1 = nxt m) by (unfold m1; destruct (kd (bd m v)); auto).
  assert (E2 : forall a, a <> v -> bd m1 a = bd m a).
  { intros a A. unfold m1. destruct (kd (bd m v)); auto. cbn [bd set_bd]. apply upd_neq. auto. }
  assert (E3 : bd m1 v = rebody base (bd m v)).
  { unfold m1, rebody. destruct (kd (bd m v)); auto. cbn [bd set_bd]. apply upd_eq. }
  clearbody m1. destruct E1 as (E1 & E4 & E5). rewrite E1.
  apply NoDup_cons_iff in D as [D1 D2].
  destruct X as [|v' X].
  - cbn [app npath] in N. destruct N as [N _]. rewrite N, Nat.eqb_refl. exists m1. conjs.
    + intros a A. apply E2. intros ->. apply A. left. auto.
    + intros a [->|[]]. auto.
  - change ((v :: v' :: X) ++ [un]) with (v :: v' :: X ++ [un]) in N. cbn [npath] in N. destruct N as [N N'].
    rewrite N. assert (Q : v' <> un) by (intros ->; apply NI; right; left; auto). apply Nat.eqb_neq in Q. rewrite Q.
    destruct (IH fuel m1) as (m' & G1 & G2 & G3 & G4 & G5 & G6).
    + discriminate.
    + rewrite E1. exact N'.
    + intros A. apply NI. right. auto.
    + auto.
    + cbn [length] in *. lia.
    + exists m'. cbn [hd] in G1. rewrite G1, G2, G3, G4. conjs.
      * intros a A. rewrite G5 by (intros B; apply A; right; auto). apply E2. intros ->. apply A. left. auto.
      * intros a [->|A].
        -- rewrite G5 by auto. auto.
        -- rewrite G6 by auto. rewrite E2; auto. intros ->. auto.
Qed.

Lemma hd_app : forall A (X Z : list A) h, hd h (X ++ Z) = hd (hd h Z) X.
Proof. intros A [|x X] Z h; reflexivity. Qed.
Lemma nodup_app : forall A (a b : list A), NoDup (a ++ b) -> NoDup a /\ NoDup b /\ forall c, In c a -> In c b -> False.
Proof.
  intros A. induction a as [|x a IH]; intros b D; cbn [app] in D.
  - split; [constructor|]. auto.
  - apply NoDup_cons_iff in D as [D1 D2]. destruct (IH _ D2) as (I1 & I2 & I3). rewrite in_app_iff in D1.
    split; [constructor; tauto|]. split; auto. intros c [->|C] C2; [tauto|eauto].
Qed.
Lemma Splice_ok : forall m h1 l1 l2 h2 A X Z base,
  ring m h1 (l1 ++ l2) -> ring m h2 (A ++ X ++ Z) ->
  (forall a, In a (h2 :: A ++ X ++ Z) -> ~ In a (h1 :: l1 ++ l2)) -> below m h2 (A ++ X ++ Z) ->
  exists m', Splice m (hd h1 l2) (hd (hd h2 Z) X) (List.last X (List.last A h2)) base = Ok m' /\
    ring m' h1 (l1 ++ X ++ l2) /\ nxt m' = nxt m /\
    (forall a, ~ In a X -> bd m' a = bd m a) /\ (forall a, In a X -> bd m' a = rebody base (bd m a)) /\
    (forall a, ~ In a (h1 :: l1 ++ l2) -> ~ In a X -> nx m' a = nx m a /\ pv m' a = pv m a).
Proof.
  intros m h1 l1 l2 h2 A X Z base R1 R2 DJ BL. unfold Splice.
  pose proof (ring_part _ _ _ _ _ R2) as (NX & PX & DX).
  destruct X as [|x0 X'].
  - cbn [hd List.last app]. cbn [app] in R2. rewrite (ring_next _ _ _ _ R2), Nat.eqb_refl. cbn [negb].
    exists m. conjs. intros a [].
  - cbn [hd]. set (w := List.last (x0 :: X') (List.last A h2)).
    assert (W : w = List.last X' x0).
    { unfold w. change (x0 :: X') with ([x0] ++ X'). rewrite last_app'. reflexivity. }
    assert (NW : nx m w = hd h2 Z).
    { unfold w. rewrite <- last_app'. apply (ring_next m h2 (A ++ x0 :: X') Z). rewrite <- app_assoc. exact R2. }
    pose proof R2 as (_ & _ & D).
    assert (X0Z : x0 <> hd h2 Z).
    { intros Q. pose proof (in_hd _ h2 Z) as I. rewrite <- Q in I.
      change (h2 :: A ++ (x0 :: X') ++ Z) with (h2 :: A ++ x0 :: X' ++ Z) in D. apply nodup_mid in D as (D1 & D2 & D3 & _).
      destruct I as [I|I]; [congruence|]. apply D3. apply in_app_iff. auto. }
    rewrite NW. apply Nat.eqb_neq in X0Z. rewrite X0Z. cbn [negb].
    pose proof (ring_prev _ _ _ _ R1) as PU. rewrite PU.
    set (m1 := set_nx (set_pv (set_pv (set_nx m (List.last l1 h1) x0) x0 (List.last l1 h1)) (hd h1 l2) w) w (hd h1 l2)).
    assert (INX : forall a, In a (x0 :: X') -> In a (h2 :: A ++ (x0 :: X') ++ Z)).
    { intros a I. right. apply in_app_iff. right. apply in_app_iff. auto. }
    assert (RR : ring m1 h1 (l1 ++ (x0 :: X') ++ l2)).
    { eapply ring_insert'; eauto; intros a _; unfold m1; cbn [nx pv set_nx set_pv]; rewrite <- W; reflexivity. }
    assert (IW : In w (x0 :: X')) by (rewrite W; apply last_in).
    assert (UN : ~ In (hd h1 l2) (x0 :: X')).
    { intros Q. apply (DJ _ (INX _ Q)). pose proof (in_hd _ h1 l2) as [I|I]; [left; auto|right; apply in_app_iff; auto]. }
    assert (NP : npath (nx m1) ((x0 :: X') ++ [hd h1 l2])).
    { destruct (last_snoc_dec _ x0 X') as (zs & w' & E & W'). rewrite <- W in W'. subst w'. rewrite E, <- app_assoc.
      apply npath_app. split; [|cbn [npath]; split; [|exact I]].
      - rewrite <- E. apply (ring_part _ _ _ _ _ RR).
      - unfold m1. cbn [nx set_nx]. apply upd_eq. }
    destruct (rebase_ok base (hd h1 l2) (x0 :: X') (S (nxt m1)) m1) as (m' & G1 & G2 & G3 & G4 & G5 & G6); auto.
    + discriminate.
    + apply Nat.le_le_succ_r. apply nodup_bound; auto; intros; apply BL; auto.
    + cbn [hd] in G1. exists m'. split; [exact G1|]. split.
      * eapply ring_frame; [exact RR|]. intros. rewrite G2, G3. auto.
      * rewrite G4. conjs.
        intros a A1 A2. split.
        -- rewrite G2. unfold m1. cbn [nx set_nx set_pv]. rewrite !upd_neq; auto.
           ++ intros ->. apply A1. pose proof (last_in _ h1 l1) as [I|I]; [left; auto|right; apply in_app_iff; auto].
           ++ intros ->. auto.
        -- rewrite G3. unfold m1. cbn [pv set_nx set_pv]. rewrite !upd_neq; auto.
           ++ intros ->. apply A2. left. auto.
           ++ intros ->. apply A1. pose proof (in_hd _ h1 l2) as [I|I]; [left; auto|right; apply in_app_iff; auto].
Qed.
