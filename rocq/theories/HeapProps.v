(** Properties of the collector: marking (C11), sweeping (C12), the conservative scan of the stack (C13) and the sort it uses (C14). *)
From Verif Require Import Base ArrZ HeapModel HeapSpec MarkProofs LayProofs SortProofs CandProofs ScanProofs.
From Coq Require Import Permutation.

(** * C11: marking *)
(** From any consistent state, for every graph and every root: the marking procedure terminates, the marked objects are exactly those
    marked before and those reachable from the root, and no word of memory changes except the mark bits in the headers. *)
Theorem C11_mark_exactly_reachable : forall g m M q, apart g -> shows m g M -> NoDup M -> incl M (objs g) -> mclosed g M -> q = 0 \/ In q (objs g) ->
  exists N m' M', (forall fuel, (N <= fuel)%nat -> Mark fuel m q = Ok m') /\ shows m' g M' /\ (forall x, In x M' <-> In x M \/ reach g q x) /\
    (forall a, (forall x, In x (objs g) -> a <> x - 8) -> m' a = m a) /\ NoDup M' /\ incl M' (objs g) /\ mclosed g M'.
Proof. intros g m M q A B C D E F. destruct (Mark_spec g m M q A B C D E F) as (N & m' & M' & H). exists N, m', M'. tauto. Qed.
(** The same for a whole list of roots in a heap of blocks and chunks. *)
Theorem C11_heap_roots : forall m h L roots, heapok m h L [] -> Forall (fun q => q = 0 \/ In q (map ptr (blocks L))) roots ->
  exists N m' M', (forall fuel, (N <= fuel)%nat -> mark_roots fuel m roots = Ok m') /\ (forall x, In x M' <-> exists q, In q roots /\ reach (graph_of m L) q x) /\
    (forall b, In b (blocks L) -> m' (ba b) = Some (btag b + if isin (ptr b) M' then 1 else 0)) /\ (forall a, (forall b, In b (blocks L) -> a <> ba b) -> m' a = m a).
Proof.
  intros m h L roots H F. assert (K0 : marking m L m []) by (apply (marking_start _ _ _ _ H); [constructor|intros ? []|intros ? ? ? []]).
  destruct (mk_roots _ _ _ _ H roots m [] K0 F) as (N & m' & M' & A & B & C). exists N, m', M'. split; auto. split; [|split].
  - intro x. rewrite C. cbn [In]. tauto.
  - intros b Ib. apply (mk_head _ _ _ _ H _ _ _ B Ib).
  - apply (mk_frame _ _ _ _ B).
Qed.

(** * C12: sweeping *)
Lemma noadj_sep : forall rs st e x y, tiles st (map fst rs) e -> noadj rs -> In (x, false) rs -> In (y, false) rs -> ba x + bsz x = ba y -> False.
Proof.
  induction rs as [|[b r] rs IH]; intros st e x y T A X Y E; [destruct X|]. cbn [map fst tiles] in T. destruct T as (T1 & (k & K1 & K2) & T).
  assert (G : forall z q, In (z, q) rs -> st + bsz b <= ba z /\ 32 <= bsz z).
  { intros z q I. destruct (tiles_in _ _ _ z T) as (U & _ & (j & J1 & J2)); [apply in_map_iff; exists (z, q); auto|]. lia. }
  destruct X as [X|X].
  - inversion X; subst b r. destruct Y as [Y|Y]; [inversion Y; subst; lia|]. destruct rs as [|[z q] rs]; [destruct Y|]. cbn [map fst tiles] in T. destruct T as (U1 & (j & J1 & J2) & T).
    cbn [noadj] in A. destruct q; [|exact A]. destruct Y as [Y|Y]; [inversion Y|]. destruct (tiles_in _ _ _ y T) as (U & _ & _); [apply in_map_iff; exists (y, false); auto|]. lia.
  - assert (A' : noadj rs) by (cbn [noadj] in A; destruct r; [exact A|destruct rs as [|[z [|]] rs]; [exact I|exact A|destruct A]]).
    destruct Y as [Y|Y]; [inversion Y; subst; destruct (G x _ X); lia|]. exact (IH _ _ x y T A' X Y E).
Qed.
Lemma addfree_ls : forall F ls i, addfree ls F i = rev (map ba (filter (fun f => cls (bsz f) =? i) F)) ++ ls i.
Proof.
  unfold addfree. induction F as [|f F IH]; intros ls i; cbn [fold_left filter]; [reflexivity|]. rewrite IH. unfold push. rewrite (Z.eqb_sym i (cls (bsz f))). destruct (cls (bsz f) =? i); [|reflexivity].
  cbn [map rev]. rewrite <- app_assoc. reflexivity.
Qed.
Lemma placed_nodup : forall L lo, placed lo L -> NoDup (map ba (blocks L)).
Proof.
  induction L as [|c L IH]; intros lo P; cbn [placed] in P; [constructor|]. destruct P as (_ & _ & _ & T & P). unfold blocks. cbn [flat_map]. fold (blocks L).
  assert (Q : forall b, In b (blocks L) -> ce c <= ba b) by (intros b B; destruct (block_chunk _ _ _ P B) as (d & _ & _ & _ & _ & _ & _ & _ & R); lia).
  clear -IH P Q T. revert T. generalize (ca c + 24) as st. induction (cb c) as [|b bs IHb]; intros st T; cbn [app map tiles] in *.
  - eapply IH; eauto.
  - destruct T as (T1 & (k & K1 & K2) & T). constructor; [|apply (IHb (st + bsz b)); auto]. intro X. apply in_map_iff in X. destruct X as (d & E & D). apply in_app_or in D. pose proof (tiles_le _ _ _ T). destruct D as [D|D].
    + destruct (tiles_in _ _ _ _ T D). lia.
    + specialize (Q d D). lia.
Qed.
Lemma frees_in : forall rs f, In f (frees rs) <-> In (f, false) rs.
Proof.
  intros rs f. unfold frees. rewrite in_map_iff. split.
  - intros ([x r] & E & I). apply filter_In in I. destruct I as [I R]. cbn [fst snd] in *. subst. destruct r; [discriminate|auto].
  - intro I. exists (f, false). split; auto. apply filter_In. auto.
Qed.
Lemma nodup_frees : forall rs, NoDup (map ba (map fst rs)) -> NoDup (map ba (frees rs)).
Proof.
  unfold frees. induction rs as [|[x r] rs IH]; intro D; cbn [filter map fst] in *; auto. inversion D; subst. destruct r; cbn [negb snd]; auto. cbn [map fst]. constructor; auto.
  intro X. apply H1. apply in_map_iff in X. destruct X as (y & E & Y). rewrite <- E. apply in_map. apply in_map_iff in Y. destruct Y as (z & E2 & Z). apply filter_In in Z. rewrite <- E2. apply in_map. tauto.
Qed.
Lemma nodup_class : forall (p : blk -> bool) F, NoDup (map ba F) -> NoDup (map ba (filter p F)).
Proof.
  induction F as [|f F IH]; intro D; cbn [filter map] in *; auto. inversion D; subst. destruct (p f); auto. cbn [map]. constructor; auto. intro X. apply H1. apply in_map_iff in X. destruct X as (y & E & Y). apply filter_In in Y. rewrite <- E. apply in_map. tauto.
Qed.
(** For every heap with any set of marked objects that is closed under pointers: sweeping terminates; afterwards
    - the chunks are the same and the blocks of each fill it without gaps (part of [heapok]), with nothing marked;
    - the marked blocks are blocks still, with their contents untouched, and all other blocks are free, at the addresses F;
    - no two free blocks are adjacent;
    - the free lists hold exactly the free blocks, each once, on the list of its size class;
    - the count of allocated bytes is the total size of the marked blocks. *)
Theorem C12_sweep : forall s L M, heapok (hm s) (heap s) L M -> incl M (map ptr (blocks L)) -> mclosed (graph_of (hm s) L) M -> zlen (fl s) = 10 -> ix (fl s) 9 <> 0 ->
  exists N s' L' F ls, (forall fuel, (N <= fuel)%nat -> Scan fuel s = Ok s') /\ heapok (hm s') (heap s') L' [] /\ map (fun c => (ca c, ce c)) L' = map (fun c => (ca c, ce c)) L /\
    (forall b, In b (blocks L) -> In (ptr b) M -> In b (blocks L') /\ ~ In (ba b) F /\ forall a, ba b < a < ba b + bsz b -> hm s' a = hm s a) /\
    (forall b, In b (blocks L') -> (In b (blocks L) /\ In (ptr b) M) \/ In (ba b) F) /\
    (forall b c, In b (blocks L') -> In c (blocks L') -> In (ba b) F -> In (ba c) F -> ba b + bsz b <> ba c) /\
    lists (hm s') (fl s') (big s') ls /\ (forall i, 1 <= i <= 9 -> NoDup (ls i) /\ forall a, In a (ls i) <-> In a F /\ exists b, In b (blocks L') /\ ba b = a /\ cls (bsz b) = i) /\
    allocd s' = fold_right (fun b n => (if isin (ptr b) M then bsz b else 0) + n) 0 (blocks L) /\
    (forall a, ~ inside L a -> hm s' a = hm s a).
Proof.
  intros s L M H IM CM Lf Sf. destruct (Scan_spec s L M H IM CM Lf Sf) as (N & s' & A & B & C & D & E & _). set (mk := fun b => isin (ptr b) M) in *.
  pose proof (ho_placed _ _ _ _ B) as P'. pose proof (ho_placed _ _ _ _ H) as P.
  assert (EB : blocks (sweepL mk L) = map fst (rsL mk L)) by apply sweepL_blocks.
  assert (U : forall x y, In x (blocks (sweepL mk L)) -> In y (blocks (sweepL mk L)) -> ba x = ba y -> x = y).
  { intros x y X Y Exy. pose proof (bsz_pos _ _ _ P' X). pose proof (bsz_pos _ _ _ P' Y). apply (block_same (sweepL mk L) 1 _ _ (ba x) P'); auto; lia. }
  assert (I1 : forall x r, In (x, r) (rsL mk L) -> In x (blocks (sweepL mk L))) by (intros x r X; rewrite EB; apply in_map_iff; exists (x, r); auto).
  assert (NB : NoDup (map ba (map fst (rsL mk L)))) by (rewrite <- EB; apply (placed_nodup _ 1 P')).
  assert (XX : forall x, In (x, true) (rsL mk L) -> In (x, false) (rsL mk L) -> False).
  { intros x X1 X2. clear -NB X1 X2. induction (rsL mk L) as [|[y r] rs IH]; [destruct X1|]. cbn [map fst] in NB. inversion NB; subst.
    assert (Q : forall q, In (x, q) rs -> In (ba x) (map ba (map fst rs))) by (intros q I; apply in_map; apply in_map_iff; exists (x, q); auto).
    destruct X1 as [X1|X1], X2 as [X2|X2]; try congruence; auto.
    - inversion X1; subst. apply H1. eauto.
    - inversion X2; subst. apply H1. eauto. }
  exists N, s', (sweepL mk L), (map ba (frees (rsL mk L))), (addfree nolists (frees (rsL mk L))).
  split; [exact A|]. split; [exact B|]. split; [|split; [|split; [|split; [|split; [|split; [|split]]]]]].
  - unfold sweepL. rewrite map_map. apply map_ext. reflexivity.
  - intros b Ib Mb. assert (Kb : In (b, true) (rsL mk L)) by (apply rsL_keep; split; auto; apply isin_true; auto). split; [eauto|]. split; [|apply (sl_keep _ _ _ _ D b Kb)].
    intro X. apply in_map_iff in X. destruct X as (f & Ef & If). apply frees_in in If. assert (f = b) by (apply U; eauto). subst f. eauto.
  - intros b Ib. rewrite EB in Ib. apply in_map_iff in Ib. destruct Ib as ([x r] & Ex & Ir). cbn [fst] in Ex. subst x. destruct r.
    + left. apply rsL_keep in Ir. destruct Ir as [I J]. split; auto. apply isin_true. exact J.
    + right. apply in_map. apply frees_in. auto.
  - intros b c Ib Ic Fb Fc Ebc.
    assert (Q : forall x, In x (blocks (sweepL mk L)) -> In (ba x) (map ba (frees (rsL mk L))) -> In (x, false) (rsL mk L)).
    { intros x Ix X. apply in_map_iff in X. destruct X as (f & Ef & If). apply frees_in in If. assert (f = x) by (apply U; eauto). subst f. auto. }
    pose proof (Q b Ib Fb) as Q1. pose proof (Q c Ic Fc) as Q2. unfold rsL in Q1, Q2. apply in_flat_map in Q1. apply in_flat_map in Q2. destruct Q1 as (c1 & J1 & K1). destruct Q2 as (c2 & J2 & K2).
    destruct (placed_ge _ _ _ P J1) as (V1 & V2 & V3 & V4 & T1). destruct (placed_ge _ _ _ P J2) as (W1 & W2 & W3 & W4 & T2).
    destruct (sweep_range _ _ _ _ _ _ T1 K1) as (R1 & R2 & R3). destruct (sweep_range _ _ _ _ _ _ T2 K2) as (S1 & S2 & S3).
    destruct (placed_disj _ _ _ _ P J1 J2) as [<-|Dj]; [|lia].
    eapply noadj_sep; [apply (sweep_tiles mk _ (ca c1 + 24) _ (ca c1 + 24) 0 T1); lia|apply sweep_noadj|exact K1|exact K2|exact Ebc].
  - exact C.
  - intros i Hi. rewrite addfree_ls. unfold nolists. rewrite app_nil_r. split.
    + apply (Permutation_NoDup (Permutation_rev _)). apply nodup_class. apply nodup_frees. auto.
    + intro a. rewrite <- in_rev, in_map_iff. split.
      * intros (f & Ef & If). apply filter_In in If. destruct If as [If Cf]. apply Z.eqb_eq in Cf. subst a. split; [apply in_map; auto|]. exists f. apply frees_in in If. split; eauto.
      * intros (Fa & b & Ib & Eb & Cb). apply in_map_iff in Fa. destruct Fa as (f & Ef & If). exists f. split; auto. apply filter_In. split; auto. apply frees_in in If. assert (f = b) by (apply U; eauto; congruence). subst f. apply Z.eqb_eq. auto.
  - exact E.
  - intros a Na. apply (sl_frame _ _ _ _ D). intros c Ic Q. apply Na. exists c. split; auto. lia.
Qed.

(** * C13: candidates found on the stack *)
(** For every heap and every list of words: every block some word points to, at its first byte or into its inside, is marked together with
    what is reachable from it; nothing else is marked.  Memory is read at headers, descriptors and pointer fields only, because an access
    anywhere else could be undefined and the result is not. *)
Theorem C13_candidates : forall s L ws, heapok (hm s) (heap s) L [] -> (forall b, In b (blocks L) -> hmin s <= ptr b /\ ba b + bsz b <= hmax s) ->
  exists N m' M', (forall fuel, (N <= fuel)%nat -> MarkStack fuel s ws = Ok m') /\
    (forall x, In x M' <-> exists b w, In b (blocks L) /\ In w ws /\ ptr b <= w < ba b + bsz b /\ reach (graph_of (hm s) L) (ptr b) x) /\
    (forall b, In b (blocks L) -> m' (ba b) = Some (btag b + if isin (ptr b) M' then 1 else 0)) /\ (forall a, (forall b, In b (blocks L) -> a <> ba b) -> m' a = hm s a).
Proof.
  intros s L ws H Rg. assert (K0 : marking (hm s) L (hm s) []) by (apply (marking_start _ _ _ _ H); [constructor|intros ? []|intros ? ? ? []]).
  destruct (ms_loop_spec _ _ _ _ H 10000 (hmin s) (hmax s) ws [] (hm s) [] Rg ltac:(lia) K0) as (N & m' & M' & A & B & C). exists N, m', M'. split; [exact A|]. split; [|split].
  - intro x. rewrite C. cbn [In app]. split.
    + intros [[]|(b & Ib & (w & Iw & R) & Q)]. exists b, w. auto.
    + intros (b & w & Ib & Iw & R & Q). right. exists b. split; auto. split; auto. exists w. auto.
  - intros b Ib. apply (mk_head _ _ _ _ H _ _ _ B Ib).
  - apply (mk_frame _ _ _ _ B).
Qed.
(** In particular a block whose address is on the stack survives. *)
Corollary C13_pointed_to_survives : forall s L ws b, heapok (hm s) (heap s) L [] -> (forall b, In b (blocks L) -> hmin s <= ptr b /\ ba b + bsz b <= hmax s) ->
  In b (blocks L) -> In (ptr b) ws -> exists N m', (forall fuel, (N <= fuel)%nat -> MarkStack fuel s ws = Ok m') /\ m' (ba b) = Some (btag b + 1).
Proof.
  intros s L ws b H Rg Ib Iw. destruct (C13_candidates s L ws H Rg) as (N & m' & M' & A & B & C & _). exists N, m'. split; auto. rewrite C by auto. replace (isin (ptr b) M') with true; auto. symmetry. apply isin_true.
  apply B. exists b, (ptr b). pose proof (bsz_pos _ _ _ (ho_placed _ _ _ _ H) Ib). split; auto. split; auto. split; [unfold ptr; lia|]. apply reach_root.
  destruct (block_chunk _ _ _ (ho_placed _ _ _ _ H) Ib) as (c & _ & _ & _ & _ & _ & _ & _ & Q). unfold ptr. lia.
Qed.

(** * C14: sorting *)
Theorem C14_heapsort : forall n a fuel, 0 <= n <= zlen a -> (Z.to_nat (2 * n + 2) < fuel)%nat ->
  exists a', HeapSort fuel n a = Ok a' /\ zlen a' = zlen a /\ Permutation a a' /\ (forall i j, 0 <= i <= j -> j < n -> ix a' i <= ix a' j) /\ (forall k, 0 <= k -> n <= k -> ix a' k = ix a k).
Proof. intros n a fuel A B. destruct (HeapSort_spec n a fuel A B) as (a' & H). exists a'. tauto. Qed.

(** * A heap *)
(** One chunk at 64 with three blocks: an object at 96 with pointer fields at 0 and 8, an object at 128 whose two fields make a cycle with
    it, an unused block of 64 bytes at 184.  The type descriptors are at 1000 and 1040. *)
Definition exL : list chunk :=
  [{| ca := 64; ce := 248; cb := [ {| ba := 88; bsz := 32; btag := 1000; bofs := [0; 8] |}; {| ba := 120; bsz := 64; btag := 1040; bofs := [40] |}; {| ba := 184; bsz := 64; btag := 192; bofs := [] |} ] |}].
Definition exmem : list (Z * Z) :=
  [(64, 0); (72, 248); (88, 1000); (96, 128); (104, 0); (120, 1040); (168, 96); (184, 192); (192, 64); (200, -8); (208, 0);
   (1000, 32); (1008, 0); (1016, 8); (1024, -24); (1040, 64); (1048, 40); (1056, -16)].
Definition exm : mem := fun a => if (0 <? a) && (a <? 2000) then match find (fun x => fst x =? a) exmem with Some (_, v) => Some v | None => Some 0 end else None.
Definition exs : hst := {| hm := exm; fl := [0; 0; 184; 0; 0; 0; 0; 0; 0; 1]; big := 0; allocd := 96; heap := 64; hmin := 96; hmax := 248; hsize := 160; hexp := 32; tick := 0 |}.
Example ex_heapok : heapok exm 64 exL [].
Proof.
  assert (NI : forall a, 248 <= a -> ~ inside exL a) by (intros a A (c & [<-|[]] & Q); cbn [ca ce] in Q; lia).
  assert (FB : forall (P : blk -> Prop), P {| ba := 88; bsz := 32; btag := 1000; bofs := [0; 8] |} -> P {| ba := 120; bsz := 64; btag := 1040; bofs := [40] |} -> P {| ba := 184; bsz := 64; btag := 192; bofs := [] |} -> forall b, In b (blocks exL) -> P b).
  { intros P P1 P2 P3 b [<-|[<-|[<-|[]]]]; auto. }
  constructor.
  - cbn [placed exL ca ce cb]. split; [lia|]. split; [lia|]. split; [exists 4; lia|]. split; auto. cbn [tiles ba bsz]. split; [lia|]. split; [exists 1; lia|]. split; [lia|]. split; [exists 2; lia|]. split; [lia|]. split; [exists 2; lia|]. lia.
  - cbn [chained exL ca ce]. split; auto. split; [reflexivity|]. exists 0. split; reflexivity.
  - intros a (c & [<-|[]] & Q) _. cbn [ca ce] in Q. unfold exm. replace (0 <? a) with true by lia. replace (a <? 2000) with true by lia. cbn [andb]. destruct (find _ _) as [[]|]; discriminate.
  - apply FB; constructor; cbn [bofs ba bsz btag]; auto; unfold ptr; cbn [ba].
    + repeat constructor; cbn [In]; lia.
    + intros o [<-|[<-|[]]]; (split; [lia|split; [lia|]]); [exists 0; lia|exists 1; lia].
    + left. intros k K. apply NI. change (zlen [0; 8]) with 2 in K. lia.
    + repeat constructor; cbn [In]; lia.
    + intros o [<-|[]]; (split; [lia|split; [lia|]]). exists 5; lia.
    + left. intros k K. apply NI. change (zlen [40]) with 1 in K. lia.
    + constructor.
    + intros o [].
    + right. change (zlen (@nil Z)) with 0. split; [lia|]. split; [lia|]. intros o [].
  - apply FB; cbn [table words bsz btag bofs app]; repeat (split; [reflexivity|]); exact I.
  - apply FB; reflexivity.
  - intros b o Ib. revert b Ib o. apply (FB (fun b => forall o, In o (bofs b) -> val exm (ptr b + o) = 0 \/ In (val exm (ptr b + o)) (map ptr (blocks exL)))); cbn [bofs].
    + intros o [<-|[<-|[]]]; [right|left]; cbn; auto.
    + intros o [<-|[]]. right. cbn; auto.
    + intros o [].
Qed.
Example ex_mark : exists m', mark_roots 20 exm [96] = Ok m' /\ m' 88 = Some 1001 /\ m' 120 = Some 1041 /\ m' 184 = Some 192 /\ m' 168 = Some 96.
Proof. eexists. split; [vm_compute; reflexivity|]. repeat split; reflexivity. Qed.
(** Nothing is reachable: the whole chunk becomes one free block of 160 bytes on list 5. *)
Example ex_scan : match Scan 20 exs with Ok s' => fl s' = [0; 0; 0; 0; 0; 88; 0; 0; 0; 1] /\ hm s' 88 = Some 96 /\ hm s' 96 = Some 160 | _ => False end.
Proof. vm_compute. auto. Qed.
Example ex_range : forall b, In b (blocks exL) -> hmin exs <= ptr b /\ ba b + bsz b <= hmax exs.
Proof. intros b [<-|[<-|[<-|[]]]]; cbn; lia. Qed.

(** The claim that only words equal to the address of an allocated block keep it does not hold: a word pointing into its inside marks it, and
    a word pointing into a free block marks that, so that it is on no list after the sweep. *)
Theorem C13_exact_addresses_refuted : ~ (forall s L ws m' b, heapok (hm s) (heap s) L [] -> (forall b, In b (blocks L) -> hmin s <= ptr b /\ ba b + bsz b <= hmax s) ->
  MarkStack 50 s ws = Ok m' -> In b (blocks L) -> m' (ba b) = Some (btag b + 1) -> exists b', In b' (blocks L) /\ In (ptr b') ws /\ reach (graph_of (hm s) L) (ptr b') (ptr b)).
Proof.
  intro H. destruct (MarkStack 50 exs [200]) as [m'| | |] eqn:E; try (vm_compute in E; discriminate).
  destruct (H exs exL [200] m' {| ba := 184; bsz := 64; btag := 192; bofs := [] |} ex_heapok ex_range E) as (b' & I & [Q|[]] & _).
  - cbn; auto.
  - assert (X : match MarkStack 50 exs [200] with Ok m => m 184 | _ => None end = Some 193) by (vm_compute; reflexivity). rewrite E in X. exact X.
  - destruct I as [<-|[<-|[<-|[]]]]; discriminate Q.
Qed.
Example ex_sort : HeapSort 20 5 [5; 3; 9; 1; 3; 7; 0] = Ok [1; 3; 3; 5; 9; 7; 0].
Proof. vm_compute. reflexivity. Qed.

Print Assumptions C11_mark_exactly_reachable.
Print Assumptions C11_heap_roots.
Print Assumptions C12_sweep.
Print Assumptions C13_candidates.
Print Assumptions C13_pointed_to_survives.
Print Assumptions C13_exact_addresses_refuted.
Print Assumptions C14_heapsort.
