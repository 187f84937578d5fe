(** C92: the collector is told every pointer in the variables of the modules, and nothing else. *)
From Coq Require FinFun.
From Verif Require Import Base OpsProps LayModel LayProps LayCProps EnumModel EnumSpec.

Section P.
Variables (Al A : Z).
Hypothesis HA : Al = 4 \/ Al = 8.
Hypothesis HP : A = 4 \/ A = 8.
Notation laid := (laid Al A).
Notation laidF := (laidF Al A).

Scheme place_ind2 := Minimality for place Sort Prop with placeF_ind2 := Minimality for placeF Sort Prop.
Lemma in_repeat : forall k i f x, In x (repeat_at k i f) <-> exists j, i <= j < i + Z.of_nat k /\ In x (f j).
Proof.
  induction k as [|k IH]; intros i f x; cbn [repeat_at]; [split; [intros []|intros (j & H & _); lia]|]. rewrite in_app_iff, IH. split.
  - intros [H|(j & H & I)]; [exists i; split; [lia|auto]|exists j; split; [lia|auto]].
  - intros (j & H & I). destruct (Z.eq_dec j i) as [->|N]; [now left|right]. exists j. split; [lia|auto].
Qed.
(** The leaves that are traced are the places. *)
Lemma leaves_place : (forall s a x, In x (offsets (leaves s a true)) <-> exists o, place s o /\ x = a + o) /\
  (forall fs a x, In x (offsets (leavesF fs a true)) <-> exists o, placeF fs o /\ x = a + o).
Proof.
  apply (styp_both (fun s => forall a x, In x (offsets (leaves s a true)) <-> exists o, place s o /\ x = a + o)
                   (fun fs => forall a x, In x (offsets (leavesF fs a true)) <-> exists o, placeF fs o /\ x = a + o)); cbn [leaves leavesF andb].
  - intros z a x. split; [intros []|intros (o & H & _); inversion H].
  - intros t z a x. destruct t; cbn; split.
    + intros [<-|[]]. exists 0. split; [constructor|lia].
    + intros (o & H & ->). inversion H; subst. left. lia.
    + intros [].
    + intros (o & H & _). inversion H.
  - intros z a x. split; [intros []|intros (o & H & _); inversion H].
  - intros n e IH z a x. rewrite offsets_rep, in_repeat. split.
    + intros (j & J & I). apply IH in I. destruct I as (o & P & ->). exists (j * size_of e + o). split; [constructor; [lia|auto]|lia].
    + intros (o & H & ->). inversion H; subst. exists i. split; [lia|]. apply IH. exists o0. split; [auto|lia].
  - intros t fs IH size align gap a x. destruct t.
    + rewrite IH. split; intros (o & H & ->); exists o; (split; [|reflexivity]); [now constructor|inversion H; auto].
    + rewrite (proj2 leaves_off). split; [intros []|intros (o & H & _); inversion H].
  - intros a x. split; [intros []|intros (o & H & _); inversion H].
  - intros fs IH v t IHt adr a x. rewrite offsets_app, in_app_iff, IH, IHt. split.
    + intros [(o & H & ->)|(o & H & ->)]; [exists o; split; [now constructor|reflexivity]|exists (adr + o); split; [now constructor|lia]].
    + intros (o & H & ->). inversion H; subst; [right; exists o0; split; [auto|lia]|left; exists o; auto].
  - intros t b IH size align gap a x. destruct t.
    + rewrite IH. split; intros (o & H & ->); exists o; (split; [|reflexivity]); [now constructor|inversion H; auto].
    + rewrite (proj2 leaves_off). split; [intros []|intros (o & H & _); inversion H].
Qed.
Lemma map_repeat : forall (g : Z -> Z) k i f, map g (repeat_at k i f) = repeat_at k i (fun j => map g (f j)).
Proof. induction k as [|k IH]; intros i f; cbn [repeat_at map]; [reflexivity|]. rewrite map_app, IH. reflexivity. Qed.
Lemma leaves_shift : (forall s tr a d, offsets (leaves s (d + a) tr) = map (Z.add d) (offsets (leaves s a tr))) /\
  (forall fs tr a d, offsets (leavesF fs (d + a) tr) = map (Z.add d) (offsets (leavesF fs a tr))).
Proof.
  apply (styp_both (fun s => forall tr a d, offsets (leaves s (d + a) tr) = map (Z.add d) (offsets (leaves s a tr)))
                   (fun fs => forall tr a d, offsets (leavesF fs (d + a) tr) = map (Z.add d) (offsets (leavesF fs a tr)))); cbn [leaves leavesF]; intros; try reflexivity.
  - destruct tr, traced; reflexivity.
  - rewrite !offsets_rep, map_repeat. apply repeat_ext. intros j. rewrite <- H. do 2 f_equal. lia.
  - apply H.
  - rewrite !offsets_app, map_app, H. f_equal. rewrite <- H0. do 2 f_equal. lia.
  - apply H.
Qed.

Definition val (m : memory) (a : Z) : Z := match m a with Some v => v | None => 0 end.
Lemma rd_val : forall m a, m a <> None -> rd m a = Ok (val m a).
Proof. intros m a H. unfold rd, val. destruct (m a); congruence. Qed.
(** The runtime procedures. *)
Lemma ENUMP_ok : forall m k adr fuel, (k < fuel)%nat -> (forall i, 0 <= i < Z.of_nat k -> m (adr + i * A) <> None) ->
  ENUMP A fuel m adr (Z.of_nat k) = Ok (map (val m) (repeat_at k 0 (fun i => [adr + i * A]))).
Proof.
  intros m. induction k as [|k IH]; intros adr [|fuel] F M; try lia; cbn [ENUMP]; [reflexivity|].
  replace (Z.of_nat (S k) >? 0) with true by (symmetry; apply Z.gtb_lt; lia). rewrite rd_val by (replace adr with (adr + 0 * A) by lia; apply M; lia). cbn [bind].
  replace (Z.of_nat (S k) - 1) with (Z.of_nat k) by lia. rewrite IH; [|lia|]. 2:{ intros i I. replace (adr + A + i * A) with (adr + (i + 1) * A) by lia. apply M. lia. }
  cbn [bind repeat_at app map]. do 2 f_equal; [f_equal; lia|]. rewrite (repeat_shift k (0 + 1)). f_equal. apply repeat_ext. intros j. f_equal. lia.
Qed.
Lemma offs_ok : forall m adr l x t fuel, (length l < fuel)%nat -> Forall (fun o => 0 <= o /\ m (adr + o) <> None) l -> x < 0 ->
  (forall i y, nth_error (l ++ [x]) i = Some y -> m (t + A * Z.of_nat i) = Some y) -> offs A fuel m adr t = Ok (map (fun o => val m (adr + o)) l).
Proof.
  intros m adr. induction l as [|o l IH]; intros x t [|fuel] F B X T; cbn [length] in F; try lia; cbn [offs].
  - unfold rd. replace t with (t + A * Z.of_nat 0) by lia. rewrite (T 0%nat x eq_refl). cbn [bind]. replace (x >=? 0) with false by (symmetry; rewrite Z.geb_leb; apply Z.leb_gt; lia). reflexivity.
  - inversion B as [|? ? [B1 B2] B3]; subst. unfold rd at 1. replace (m t) with (Some o) by (replace t with (t + A * Z.of_nat 0) by lia; symmetry; apply T; reflexivity). cbn [bind].
    replace (o >=? 0) with true by (symmetry; apply Z.geb_le; lia). rewrite rd_val by exact B2. cbn [bind].
    rewrite (IH x); [reflexivity|lia|exact B3|exact X|]. intros i y N. replace (t + A + A * Z.of_nat i) with (t + A * Z.of_nat (S i)) by lia. apply T. exact N.
Qed.
Lemma enumr_ok : forall m l x t size k adr fuel, (length l + k < fuel)%nat -> x < 0 -> (forall i y, nth_error (l ++ [x]) i = Some y -> m (t + A * Z.of_nat i) = Some y) ->
  Forall (fun o => 0 <= o) l -> (forall i o, 0 <= i < Z.of_nat k -> In o l -> m (adr + i * size + o) <> None) ->
  enumr A fuel m adr t size (Z.of_nat k) = Ok (map (val m) (repeat_at k 0 (fun i => map (fun o => adr + i * size + o) l))).
Proof.
  intros m l x t size. induction k as [|k IH]; intros adr [|fuel] F X T L M; try lia; cbn [enumr]; [reflexivity|].
  replace (Z.of_nat (S k) >? 0) with true by (symmetry; apply Z.gtb_lt; lia). rewrite (offs_ok m adr l x); [|lia| |exact X|exact T].
  2:{ apply Forall_forall. intros o I. split; [rewrite Forall_forall in L; auto|]. replace (adr + o) with (adr + 0 * size + o) by lia. apply M; [lia|auto]. }
  cbn [bind]. replace (Z.of_nat (S k) - 1) with (Z.of_nat k) by lia. rewrite IH; [|lia|exact X|exact T|exact L|].
  2:{ intros i o I IO. replace (adr + size + i * size + o) with (adr + (i + 1) * size + o) by lia. apply M; [lia|auto]. }
  cbn [bind repeat_at]. rewrite map_app, map_map. do 2 f_equal.
  - apply map_ext. intros o. do 2 f_equal. lia.
  - rewrite (repeat_shift k (0 + 1)). f_equal. apply repeat_ext. intros j. apply map_ext. intros o. lia.
Qed.
(** The lengths of nested arrays. *)
Lemma size_pos : forall s, laid s -> 0 < size_of s.
Proof. intros s L. destruct (laid_sound Al A HA HP s L) as (P & _ & _ & H). apply pow_pos in P. lia. Qed.
Fixpoint ranks (s : styp) : Z := match s with SArr n e _ => n * ranks e | _ => 1 end.
Lemma ranks_size : forall s, laid s -> 1 <= ranks s /\ size_of s = ranks s * size_of (innermost s) /\ laid (innermost s).
Proof.
  induction s; intros L; cbn [ranks innermost]; try (split; [lia|split; [lia|exact L]]).
  cbn [LayProps.laid] in L. destruct L as (N & L & E). destruct (IHs L) as (R & S & I). split; [nia|]. split; [|exact I]. cbn [size_of]. rewrite E, S. lia.
Qed.
Lemma dims_ok : forall s n, laid s -> 1 <= n -> n * ranks s <= 2 ^ 31 - 1 -> dims n s = Ok (n * ranks s, innermost s).
Proof.
  induction s; intros m L N B; cbn [dims ranks innermost]; try (do 2 f_equal; lia).
  cbn [LayProps.laid] in L. destruct L as (N' & L & E). cbn [ranks] in B. destruct (ranks_size s L) as (R & _ & _).
  rewrite chk_ok by (unfold in_int; change (2 ^ (32 - 1)) with (2 ^ 31); split; nia). cbn [bind]. rewrite IHs by (auto; nia). do 2 f_equal. lia.
Qed.
Lemma Put_ranks : forall s a, laid s -> PutPtrOffsets s a = repeat_at (Z.to_nat (ranks s)) 0 (fun i => PutPtrOffsets (innermost s) (a + i * size_of (innermost s))).
Proof.
  induction s; intros a L; cbn [ranks innermost]; try (change (Z.to_nat 1) with 1%nat; cbn [repeat_at]; rewrite app_nil_r; f_equal; lia).
  cbn [LayProps.laid] in L. destruct L as (N & L & E). destruct (ranks_size s L) as (R & SZ & I).
  destruct (proj1 (put_both Al A) s L) as (P1 & _ & P3). rewrite P3 by lia.
  rewrite (repeat_ext _ _ _ (fun i => repeat_at (Z.to_nat (ranks s)) 0 (fun j => PutPtrOffsets (innermost s) (a + (i * Z.of_nat (Z.to_nat (ranks s)) + j) * size_of (innermost s))))).
  - rewrite (repeat_mul _ 0 _ (fun k => PutPtrOffsets (innermost s) (a + k * size_of (innermost s)))). rewrite <- Z2Nat.inj_mul by lia. reflexivity.
  - intros i. rewrite <- P1, IHs by exact L. apply repeat_ext. intros j. f_equal. rewrite SZ, Z2Nat.id by lia. lia.
Qed.
Lemma fits : forall t s, TypSize Al A t = Ok s -> (exists n e z, s = SArr n e z) -> size_of s <= 2 ^ 31 - 1.
Proof.
  intros t s H (n & e & z & ->). destruct t as [x|tr| |k t|tr fs]; cbn [TypSize] in H; try discriminate.
  - destruct (TypSize Al A t) as [e'|c| |]; cbn [bind] in H; try discriminate. destruct (chk 32 (k * size_of e')) as [z'|c| |] eqn:CK; cbn [bind] in H; try discriminate.
    apply Base.chk_inv in CK. destruct CK as (CE & CK). unfold in_int in CK. change (2 ^ (32 - 1)) with (2 ^ 31) in CK. inversion H. subst z. cbn [size_of]. lia.
  - revert H. match goal with |- context [bind ?x _] => destruct x as [[[f o] b]|c| |] end; cbn [bind]; try discriminate. destruct (finish o b) as [[[x y] w]|c| |]; cbn [bind]; discriminate.
Qed.

(** One variable. *)
Definition addrs (v : var) : list Z := map (Z.add (vadr v)) (offsets (leaves (vtyp v) 0 true)).
Lemma nonneg : forall s, laid s -> forall a x, 0 <= a -> In x (offsets (leaves s a true)) -> a <= x /\ x < a + size_of s.
Proof.
  intros s L a x P I. pose proof (leaves_chain Al A HA HP s L a true) as C. pose proof (proj1 (traced_size Al A) s L a true) as T.
  assert (G : forall l lo hi, chain lo l hi -> Forall (fun p => snd p = true -> snd (fst p) = A) l -> forall x, In x (offsets l) -> lo <= x < hi).
  { clear - HP. unfold offsets. induction l as [|[[o z] b] l IH]; intros lo hi C T y I; cbn [chain filter map snd fst In] in *; [destruct I|]. destruct C as (C1 & C2 & C3).
    inversion T as [|? ? T1 T2]; subst. cbn [fst snd] in *. assert (C4 : o + z <= hi).
    { clear - C3. revert C3. generalize (o + z). induction l as [|[[o' z'] b'] l IH]; intros lo C; cbn [chain] in C; [exact C|]. destruct C as (X1 & X2 & X3). apply IH in X3. lia. }
    destruct b; cbn [map In fst] in I.
    - destruct I as [<-|I]; [rewrite (T1 eq_refl) in *; lia|]. specialize (IH _ _ C3 T2 y I). lia.
    - specialize (IH _ _ C3 T2 y I). lia. }
  specialize (G _ _ _ C T x I). lia.
Qed.
Lemma var_ok : forall m v t, wf t -> TypSize Al A t = Ok (vtyp v) ->
  (forall fs size align gap, innermost (vtyp v) = SRec true fs size align gap -> described A m (vdesc v) (innermost (vtyp v))) ->
  (forall o, place (vtyp v) o -> m (vadr v + o) <> None) ->
  exists ss N, gen_var v = Ok ss /\ forall fuel, (N <= fuel)%nat -> EnumPtrs A fuel m ss = Ok (map (val m) (addrs v)).
Proof.
  intros m v t W H D M. pose proof (TypSize_laid Al A HA HP t W _ H) as L. destruct (ranks_size _ L) as (R & SZ & I).
  destruct (proj1 (put_both Al A) _ L) as (P1 & P2 & _). destruct (proj1 (put_both Al A) _ I) as (Q1 & Q2 & _).
  assert (MA : forall x, In x (addrs v) -> m x <> None).
  { intros x X. unfold addrs in X. apply in_map_iff in X. destruct X as (o & <- & X). apply (proj1 leaves_place) in X. destruct X as (o' & X & ->). now apply M. }
  assert (AE : addrs v = repeat_at (Z.to_nat (ranks (vtyp v))) 0 (fun i => map (fun o => vadr v + i * size_of (innermost (vtyp v)) + o) (offsets (leaves (innermost (vtyp v)) 0 true)))).
  { unfold addrs. rewrite <- P1, (Put_ranks _ 0 L), map_repeat. apply repeat_ext. intros i. rewrite Q1.
    replace (0 + i * size_of (innermost (vtyp v))) with (i * size_of (innermost (vtyp v)) + 0) by lia. rewrite (proj1 leaves_shift), map_map. apply map_ext. intros o. lia. }
  unfold gen_var. destruct (NofPtrs (vtyp v) >? 0) eqn:G.
  2:{ exists [], 0%nat. split; [reflexivity|]. intros fuel _. cbn [EnumPtrs]. do 2 f_equal. unfold addrs. rewrite <- P1. specialize (P2 0). destruct (PutPtrOffsets (vtyp v) 0); [reflexivity|]. cbn [length] in P2. lia. }
  set (e := innermost (vtyp v)) in *. set (k := Z.to_nat (ranks (vtyp v))) in *.
  (* an enumeration of records *)
  assert (RECORDS : forall tr fs size align gap, e = SRec tr fs size align gap -> tr = true -> exists N, forall fuel, (N <= fuel)%nat ->
    ENUMR A fuel m (vadr v) (vdesc v) size (ranks (vtyp v)) = Ok (map (val m) (addrs v))).
  { intros tr fs size align gap E ->. specialize (D fs size align gap E). exists (S (length (offsets (leaves e 0 true)) + k)). intros fuel F. unfold ENUMR. rewrite AE.
    replace (ranks (vtyp v)) with (Z.of_nat k) by (unfold k; lia). replace size with (size_of e) by (rewrite E; reflexivity).
    apply (enumr_ok m (offsets (leaves e 0 true)) (- (Z.of_nat (length (offsets (leaves e 0 true))) + 1) * A)); [lia| | | |].
    - destruct HP as [-> | ->]; lia.
    - intros i y Y. unfold described in D. apply D. unfold TDesc. rewrite Q1. exact Y.
    - apply Forall_forall. intros o O. apply (nonneg e I 0 o) in O; lia.
    - intros i o J O. apply MA. rewrite AE. apply in_repeat. exists i. split; [lia|]. apply in_map_iff. exists o. auto. }
  assert (POINTERS : forall tr z, e = SPtr tr z -> tr = true -> exists N, forall fuel, (N <= fuel)%nat -> ENUMP A fuel m (vadr v) (ranks (vtyp v)) = Ok (map (val m) (addrs v))).
  { intros tr z E ->. exists (S k). intros fuel F. assert (Z1 : z = A) by (rewrite E in I; exact I). subst z.
    assert (AE2 : addrs v = repeat_at k 0 (fun i => [vadr v + i * A])).
    { rewrite AE, E. apply repeat_ext. intros i. cbn. f_equal. lia. }
    replace (ranks (vtyp v)) with (Z.of_nat k) by (unfold k; lia). rewrite AE2. apply ENUMP_ok; [lia|]. intros i J. apply MA. rewrite AE2. apply in_repeat. exists i. split; [lia|now left]. }
  assert (TRUE : NofPtrs e > 0).
  { rewrite <- (Q2 0), Q1. specialize (P2 0). rewrite P1 in P2. unfold addrs in AE. destruct (offsets (leaves e 0 true)) eqn:OE; [|cbn [length]; lia].
    exfalso. cbn [map] in AE. rewrite repeat_nil in AE by reflexivity. apply map_eq_nil in AE. rewrite AE in P2. cbn in P2. lia. }
  destruct (vtyp v) as [z|tr z|z|n e0 z|tr fs size align gap] eqn:V; cbn [innermost] in e.
  - exfalso. subst e. cbn in TRUE. lia.
  - destruct tr; [|subst e; cbn in TRUE; lia]. exists [CallP (vadr v)], 0%nat. split; [reflexivity|]. intros fuel _. cbn [EnumPtrs exec].
    rewrite rd_val by (apply MA; unfold addrs; rewrite V; cbn; left; lia). cbn [bind app]. unfold addrs. rewrite V. cbn. do 3 f_equal. lia.
  - exfalso. subst e. cbn in TRUE. lia.
  - cbn [LayProps.laid] in L. destruct L as (N & L & E). destruct (ranks_size e0 L) as (R0 & S0 & I0). pose proof (fits t _ H ltac:(eauto)) as FT. cbn [size_of] in FT.
    pose proof (size_pos _ I0) as SP. assert (BND : n * ranks e0 <= 2 ^ 31 - 1) by (rewrite E, S0 in FT; rewrite Z.mul_assoc in FT; assert (0 <= n * ranks e0) by (apply Z.mul_nonneg_nonneg; lia); nia).
    rewrite dims_ok; [|exact L|exact N|exact BND]. cbn [bind]. cbn [ranks] in *. fold e.
    destruct e as [z'|tr z'|z'|n' e' z'|tr fs size align gap] eqn:EE.
    + exfalso. cbn in TRUE. lia.
    + destruct tr; [|cbn in TRUE; lia]. destruct (POINTERS true z' eq_refl eq_refl) as (N1 & F). exists [EnumP (vadr v) (n * ranks e0)], N1. split; [reflexivity|]. intros fuel FU.
      cbn [EnumPtrs exec]. rewrite F by exact FU. cbn [bind]. now rewrite app_nil_r.
    + exfalso. cbn in TRUE. lia.
    + exfalso. clear - EE. subst e. revert EE. induction e0; cbn; try discriminate. exact IHe0.
    + destruct tr; [|cbn in TRUE; lia]. destruct (RECORDS true fs size align gap eq_refl eq_refl) as (N1 & F). exists [EnumR (vadr v) (vdesc v) size (n * ranks e0)], N1. split; [reflexivity|]. intros fuel FU.
      cbn [EnumPtrs exec]. rewrite F by exact FU. cbn [bind]. now rewrite app_nil_r.
  - destruct tr; [|subst e; cbn in TRUE; lia]. destruct (RECORDS true fs size align gap eq_refl eq_refl) as (N1 & F). exists [EnumR (vadr v) (vdesc v) size 1], N1. split; [reflexivity|]. intros fuel FU.
    cbn [EnumPtrs exec]. cbn [ranks] in F. rewrite F by exact FU. cbn [bind]. now rewrite app_nil_r.
Qed.
Lemma addrs_place : forall v x, In x (addrs v) <-> exists o, place (vtyp v) o /\ x = vadr v + o.
Proof.
  intros v x. unfold addrs. rewrite in_map_iff. split.
  - intros (y & <- & I). apply (proj1 leaves_place) in I. destruct I as (o & P & ->). exists o. split; [exact P|lia].
  - intros (o & P & ->). exists o. split; [reflexivity|]. apply (proj1 leaves_place). exists o. split; [exact P|lia].
Qed.
Lemma rising_nodup : forall l lo hi, rising A lo l hi -> NoDup l /\ Forall (fun o => lo <= o) l.
Proof.
  induction l as [|o l IH]; intros lo hi R; cbn [rising] in R; [split; constructor|]. destruct R as (R1 & R2). destruct (IH _ _ R2) as (N & F). rewrite Forall_forall in F. split.
  - constructor; [|exact N]. intros I. specialize (F o I). destruct HP; lia.
  - constructor; [exact R1|]. apply Forall_forall. intros x I. specialize (F x I). destruct HP; lia.
Qed.
Lemma nodup_app : forall (a b : list Z), NoDup a -> NoDup b -> (forall x, In x a -> ~ In x b) -> NoDup (a ++ b).
Proof.
  induction a as [|x a IH]; intros b NA NB D; [exact NB|]. inversion NA; subst. cbn [app]. constructor.
  - rewrite in_app_iff. intros [I|I]; [auto|]. apply (D x); [now left|exact I].
  - apply IH; auto. intros y Y. apply D. now right.
Qed.
Definition all (vars : list var) : list Z := flat_map addrs vars.
Lemma gen_ok : forall m vars, Forall (fun v => (exists t, wf t /\ TypSize Al A t = Ok (vtyp v)) /\
    (forall fs size align gap, innermost (vtyp v) = SRec true fs size align gap -> described A m (vdesc v) (innermost (vtyp v))) /\
    (forall o, place (vtyp v) o -> m (vadr v + o) <> None)) vars ->
  exists ss N, GenEnumPtrs vars = Ok ss /\ forall fuel, (N <= fuel)%nat -> EnumPtrs A fuel m ss = Ok (map (val m) (all vars)).
Proof.
  intros m. induction vars as [|v vars IH]; intros F; [exists [], 0%nat; split; reflexivity|]. inversion F as [|? ? ((t & W & T) & D & M) F2]; subst.
  destruct (var_ok m v t W T D M) as (s1 & N1 & G1 & E1). destruct (IH F2) as (s2 & N2 & G2 & E2). exists (s1 ++ s2), (N1 + N2)%nat. cbn [GenEnumPtrs]. rewrite G1, G2. cbn [bind].
  split; [reflexivity|]. intros fuel FU. cbn [all flat_map]. rewrite map_app. specialize (E1 fuel ltac:(lia)). specialize (E2 fuel ltac:(lia)).
  revert E1. generalize (map (val m) (addrs v)). clear - E2. unfold all in *. induction s1 as [|s s1 I1]; intros l E1; cbn [EnumPtrs app] in *; [injection E1 as <-; exact E2|].
  destruct (exec A fuel m s) as [a| | |]; cbn [bind] in *; try discriminate. destruct (EnumPtrs A fuel m s1) as [b| | |]; cbn [bind] in *; try discriminate. injection E1 as <-.
  rewrite (I1 b eq_refl). cbn [bind]. now rewrite app_assoc.
Qed.
Lemma all_place : forall vars x, In x (all vars) <-> exists v o, In v vars /\ place (vtyp v) o /\ x = vadr v + o.
Proof.
  intros vars x. unfold all. rewrite in_flat_map. split.
  - intros (v & I & X). apply addrs_place in X. destruct X as (o & P & E). eauto.
  - intros (v & o & I & P & E). exists v. split; [exact I|]. apply addrs_place. eauto.
Qed.
Lemma all_nodup : forall m vars, ready Al A wf m vars -> NoDup (all vars).
Proof.
  intros m vars (F & O). induction vars as [|v vars IH]; [constructor|]. inversion F as [|? ? ((t & W & T) & _) F2]; subst. inversion O as [|? ? O1 O2]; subst. cbn [all flat_map].
  assert (B : forall w x, In w (v :: vars) -> In x (addrs w) -> vadr w <= x < vadr w + size_of (vtyp w)).
  { intros w x I X. rewrite Forall_forall in F. destruct (F w I) as ((t' & W' & T') & _). pose proof (TypSize_laid Al A HA HP t' W' _ T') as L. unfold addrs in X. apply in_map_iff in X.
    destruct X as (o & <- & X). apply (nonneg _ L 0) in X; [|lia]. lia. }
  apply nodup_app.
  - unfold addrs. apply FinFun.Injective_map_NoDup; [intros a b E; lia|]. pose proof (TypSize_laid Al A HA HP t W _ T) as L. rewrite <- (proj1 (proj1 (put_both Al A) _ L)).
    destruct (C43_ascending Al A HA HP t _ W T) as (R & _). exact (proj1 (rising_nodup _ _ _ R)).
  - apply IH; auto.
  - intros x X Y. apply in_flat_map in Y. destruct Y as (w & I & Y). rewrite Forall_forall in O1. pose proof (B v x ltac:(now left) X). pose proof (B w x ltac:(now right) Y). specialize (O1 w I). lia.
Qed.
Lemma vals : forall m l, (forall x, In x l -> m x <> None) -> Forall2 (fun a x => m a = Some x) l (map (val m) l).
Proof.
  intros m. induction l as [|a l IH]; intros H; cbn [map]; constructor.
  - pose proof (H a (or_introl eq_refl)). unfold val. destruct (m a); congruence.
  - apply IH. intros x I. apply H. now right.
Qed.
Lemma ready_mem : forall m vars, ready Al A wf m vars -> forall x, In x (all vars) -> m x <> None.
Proof. intros m vars (F & _) x X. apply all_place in X. destruct X as (v & o & I & P & ->). rewrite Forall_forall in F. now apply (F v I). Qed.
Theorem roots : forall m vars, ready Al A wf m vars ->
  exists ss N at_ told, GenEnumPtrs vars = Ok ss /\ (forall fuel, (N <= fuel)%nat -> EnumPtrs A fuel m ss = Ok told) /\
    NoDup at_ /\ (forall a, In a at_ <-> exists v o, In v vars /\ place (vtyp v) o /\ a = vadr v + o) /\ Forall2 (fun a x => m a = Some x) at_ told.
Proof.
  intros m vars R. destruct (gen_ok m vars (proj1 R)) as (ss & N & G & E). exists ss, N, (all vars), (map (val m) (all vars)).
  split; [exact G|]. split; [exact E|]. split; [exact (all_nodup m vars R)|]. split; [apply all_place|]. apply vals. exact (ready_mem m vars R).
Qed.
Lemma reg_none : forall ss, RegMod ss = None -> ss = [].
Proof. intros [|s ss]; [reflexivity|discriminate]. Qed.
Theorem modules : forall m mods, ready Al A wf m (concat mods) ->
  exists regs N at_ told, Forall2 (fun vars r => exists ss, GenEnumPtrs vars = Ok ss /\ r = RegMod ss) mods regs /\
    (forall fuel, (N <= fuel)%nat -> MarkAll A fuel m regs = Ok told) /\
    NoDup at_ /\ (forall a, In a at_ <-> exists v o, In v (concat mods) /\ place (vtyp v) o /\ a = vadr v + o) /\ Forall2 (fun a x => m a = Some x) at_ told.
Proof.
  intros m mods R.
  assert (G : forall mods, Forall (fun v => (exists t, wf t /\ TypSize Al A t = Ok (vtyp v)) /\
    (forall fs size align gap, innermost (vtyp v) = SRec true fs size align gap -> described A m (vdesc v) (innermost (vtyp v))) /\
    (forall o, place (vtyp v) o -> m (vadr v + o) <> None)) (concat mods) ->
    exists regs N, Forall2 (fun vars r => exists ss, GenEnumPtrs vars = Ok ss /\ r = RegMod ss) mods regs /\
    (forall fuel, (N <= fuel)%nat -> MarkAll A fuel m regs = Ok (map (val m) (all (concat mods))))).
  { clear mods R. induction mods as [|vars mods IH]; intros F; [exists [], 0%nat; split; [constructor|reflexivity]|]. cbn [concat] in F. apply Forall_app in F. destruct F as (F1 & F2).
    destruct (gen_ok m vars F1) as (ss & N1 & G1 & E1). destruct (IH F2) as (regs & N2 & G2 & E2). exists (RegMod ss :: regs), (N1 + N2)%nat.
    split; [constructor; eauto|]. intros fuel FU. specialize (E1 fuel ltac:(lia)). specialize (E2 fuel ltac:(lia)).
    cbn [concat]. unfold all in *. rewrite flat_map_app, map_app. destruct ss as [|s ss]; cbn [RegMod MarkAll].
    - cbn [EnumPtrs] in E1. injection E1 as <-. exact E2.
    - rewrite E1. cbn [bind]. rewrite E2. reflexivity. }
  destruct (G mods (proj1 R)) as (regs & N & G1 & E1). exists regs, N, (all (concat mods)), (map (val m) (all (concat mods))).
  split; [exact G1|]. split; [exact E1|]. split; [exact (all_nodup m _ R)|]. split; [apply all_place|]. apply vals. exact (ready_mem m _ R).
Qed.
End P.

(** For every program: the generated procedure of a module tells the collector the contents of each pointer variable in the module's variables, each one once,
    and nothing else; nothing outside the variables and the descriptors is read, and every loop ends. *)
Theorem C92_roots : forall Al A, Al = 4 \/ Al = 8 -> A = 4 \/ A = 8 -> forall m vars, ready Al A wf m vars ->
  exists ss N at_ told, GenEnumPtrs vars = Ok ss /\ (forall fuel, (N <= fuel)%nat -> EnumPtrs A fuel m ss = Ok told) /\
    NoDup at_ /\ (forall a, In a at_ <-> exists v o, In v vars /\ place (vtyp v) o /\ a = vadr v + o) /\ Forall2 (fun a x => m a = Some x) at_ told.
Proof. exact roots. Qed.
(** The same for all modules of a program; those without such variables are registered without a procedure. *)
Theorem C92_modules : forall Al A, Al = 4 \/ Al = 8 -> A = 4 \/ A = 8 -> forall m mods, ready Al A wf m (concat mods) ->
  exists regs N at_ told, Forall2 (fun vars r => exists ss, GenEnumPtrs vars = Ok ss /\ r = RegMod ss) mods regs /\
    (forall fuel, (N <= fuel)%nat -> MarkAll A fuel m regs = Ok told) /\
    NoDup at_ /\ (forall a, In a at_ <-> exists v o, In v (concat mods) /\ place (vtyp v) o /\ a = vadr v + o) /\ Forall2 (fun a x => m a = Some x) at_ told.
Proof. exact modules. Qed.

(** Non-vacuity: VAR p: POINTER; a: ARRAY 2, 2 OF RECORD n: LONGINT; q: POINTER END; c: CHAR; x: POINTER [1] ... *)
Definition rty : styp := SRec true (SAdd (SAdd SNone true (SBasic 4) 0) true (SPtr true 8) 8) 16 8 0.
Definition vp : var := {| vadr := 1000; vtyp := SPtr true 8; vdesc := 0 |}.
Definition va : var := {| vadr := 1008; vtyp := SArr 2 (SArr 2 rty 32) 64; vdesc := 2000 |}.
Definition vc : var := {| vadr := 1072; vtyp := SBasic 1; vdesc := 0 |}.
Definition vx : var := {| vadr := 1080; vtyp := SPtr false 8; vdesc := 0 |}.
Definition mem (a : Z) : option Z := if a =? 2008 then Some 8 else if a =? 2016 then Some (-16) else if (1000 <=? a) && (a <? 1080) then Some (a + 7) else None.
Example C92_met : ready 8 8 wf mem (concat [[vp; va]; [vc; vx]]) /\ RegMod [] = None /\
  GenEnumPtrs [vp; va] = Ok [CallP 1000; EnumR 1008 2000 16 4] /\ GenEnumPtrs [vc; vx] = Ok [] /\
  EnumPtrs 8 10 mem [CallP 1000; EnumR 1008 2000 16 4] = Ok [1007; 1023; 1039; 1055; 1071].
Proof.
  split; [|vm_compute; auto]. cbn [concat app]. split.
  - repeat constructor.
    + exists (TPtr true). split; [exact I|reflexivity].
    + intros fs size align gap H. discriminate H.
    + intros o H. inversion H; subst. vm_compute. discriminate.
    + exists (TArr 2 (TArr 2 (TRec true (FAdd (FAdd FNone true (TBasic 4)) true (TPtr true))))). split; [cbn; unfold pow; lia|vm_compute; reflexivity].
    + intros fs size align gap _. intros [|[|[|i]]] x H; cbn in H; try discriminate; injection H as <-; reflexivity.
    + intros o H. inversion H as [|n e z i o1 I P|]; subst. inversion P as [|n e z i2 o2 I2 P2|]; subst. inversion P2 as [| |fs size align gap o3 P3]; subst.
      inversion P3 as [fs vis t adr o4 P4|fs vis t adr o4 P4|]; subst.
      * inversion P4; subst. unfold mem. cbn [vadr va size_of]. replace (_ =? 2008) with false by (symmetry; apply Z.eqb_neq; cbn [size_of rty]; lia). replace (_ =? 2016) with false by (symmetry; apply Z.eqb_neq; cbn [size_of rty]; lia).
        replace (_ && _) with true; [discriminate|]. symmetry. apply andb_true_iff. cbn [size_of rty]. split; [apply Z.leb_le|apply Z.ltb_lt]; lia.
      * inversion P4 as [? ? ? ? ? P5|? ? ? ? ? P5|]; subst; inversion P5.
    + exists (TBasic 1). split; [cbn; unfold pow; lia|reflexivity].
    + intros fs size align gap H. discriminate H.
    + intros o H. inversion H.
    + exists (TPtr false). split; [exact I|reflexivity].
    + intros fs size align gap H. discriminate H.
    + intros o H. inversion H.
  - repeat constructor; cbn; lia.
Qed.
Print Assumptions C92_roots. Print Assumptions C92_modules. Print Assumptions C92_met.
