From Verif Require Import Base ArrZ HeapModel HeapSpec MarkProofs LayProofs SortProofs ScanProofs AllocProofs CarveProofs ExtendProofs GCProofs NewProofs TransSpec.

(** * Writing into an object *)
Lemma live_put : forall s L ls b o v, hinv s L ls -> In b (blocks L) -> ~ free ls (ba b) -> 0 <= o -> o + 16 <= bsz b -> (exists k, o = 8 * k) ->
  (forall k, 0 <= k <= zlen (bofs b) + 1 -> ptr b + o <> btag b + 8 * k) -> (In o (bofs b) -> v = 0 \/ (In v (map ptr (blocks L)) /\ ~ free ls (v - 8))) ->
  hinv (setmem (upd (hm s) (ptr b + o) v) s) L ls /\ hm s (ptr b + o) <> None.
Proof.
  intros s L ls b o v HI B F O1 O2 (ok & O3) NT NV. pose proof (hi_ok _ _ _ HI) as OK. pose proof (ho_placed _ _ _ _ OK) as P. destruct (blk_al _ _ _ HI b B) as ((bk & Al) & Po & Sz).
  assert (Mp : hm s (ptr b + o) <> None) by (apply (blk_mapped _ _ _ HI b); auto; [unfold ptr; lia|exists (bk + 1 + ok); unfold ptr; lia]). split; auto.
  set (a := ptr b + o) in *. assert (Ra : ba b < a < ba b + bsz b) by (unfold a, ptr; lia).
  assert (NB : forall d, In d (blocks L) -> d <> b -> ~ (ba d <= a < ba d + bsz d)) by (intros d D N Q; apply N; apply (block_same L 1 _ _ a P); auto; lia).
  assert (NI : inside L a) by (apply (block_in L 1 b); auto; lia).
  assert (LK : forall x, free ls x -> upd (hm s) a v (x + 24) = hm s (x + 24)).
  { intros x X. apply upd_other. destruct (free_blk _ _ _ HI x X) as (d & D1 & D2 & _). assert (d <> b) by (intros ->; apply F; congruence). pose proof (bsz_pos _ _ _ P D1). specialize (NB d D1 H). lia. }
  assert (FV : forall d o', In d (blocks L) -> In o' (bofs d) -> (ptr d + o' = a -> d = b /\ o' = o)).
  { intros d o' D O' E. pose proof (fld_loc _ _ _ _ OK d o' D O'). assert (d = b) by (apply (block_same L 1 _ _ a P); auto; lia). subst d. split; auto. unfold a in E. lia. }
  destruct HI as [_ [L1 L2 L3 L4] H3 H4 H5 H6 H7 H8 H9 H10]. constructor; auto.
  - constructor; auto; cbn [setmem hm heap].
    + apply (chained_frame (hm s)); [|apply (ho_chain _ _ _ _ OK)]. intros c x C X. apply upd_other. intro E. apply (header_not_block L 1 c b x P C B X). lia.
    + intros x X Kx. apply upd_dom. apply (ho_map _ _ _ _ OK); auto.
    + apply (ho_wf _ _ _ _ OK).
    + intros d D. apply (words_frame (hm s)); [|apply (ho_tab _ _ _ _ OK d D)]. rewrite table_len. intros k K. apply upd_other.
      destruct (wf_tab _ _ (ho_wf _ _ _ _ OK d D)) as [W|(W1 & W2 & _)]; [intro E; apply (W k); [lia|]; rewrite E; auto|].
      intro E. assert (d = b) by (apply (block_same L 1 _ _ a P); auto; unfold ptr in *; lia). subst d. apply (NT k); [lia|auto].
    + intros d D. rewrite upd_other; [apply (ho_head _ _ _ _ OK d D)|]. pose proof (bsz_pos _ _ _ P D). intro E. assert (d = b) by (apply (block_same L 1 _ _ a P); auto; lia). subst d. lia.
    + intros d o' D O'. unfold val. destruct (Z.eq_dec (ptr d + o') a) as [E|E].
      * destruct (FV d o' D O' E) as [-> ->]. rewrite E, upd_same. destruct (NV O') as [|[]]; auto.
      * rewrite upd_other by auto. apply (ho_fld _ _ _ _ OK d o' D O').
  - constructor; auto; cbn [setmem hm fl big].
    + intros i I. apply (linked_frame (hm s)); auto. intros x X. apply LK. exists i. split; auto. lia.
    + apply (linked_frame (hm s)); auto. intros x X. apply LK. exists 9. split; auto. lia.
  - cbn [setmem hm]. intros d o' D O'. unfold val. destruct (Z.eq_dec (ptr d + o') a) as [E|E].
    + destruct (FV d o' D O' E) as [-> ->]. rewrite E, upd_same. destruct (NV O') as [|[]]; auto; congruence.
    + rewrite upd_other by auto. apply (H6 d o' D O').
Qed.

Section T.
Variable e : env.
Hypothesis Ho : honest (e_os e).
Let tys := e_tys e.

Inductive areach (st : store) : nat -> Prop :=
| ar_var : forall i, In (Some i) (vars st) -> areach st i
| ar_fld : forall i ob tag bs ofs o j, areach st i -> nth_error (objects st) i = Some ob -> tys (oty ob) = Some (tag, bs, ofs) -> In o ofs -> optr ob o = Some j -> areach st j.
Definition addr (f : nat -> Z) (x : option nat) : Z := match x with None => 0 | Some i => f i end.
(** Object i is the block at [f i]. *)
Record rep (s : hst) (L : list chunk) (ls : Z -> list Z) (f : nat -> Z) (st : store) (i : nat) (ob : obj) (tag bs : Z) (ofs : list Z) : Prop := {
  rp_ob : nth_error (objects st) i = Some ob;
  rp_ty : tys (oty ob) = Some (tag, bs, ofs);
  rp_in : In (recb (f i) bs tag ofs) (blocks L);
  rp_lv : ~ free ls (f i - 8);
  rp_pf : forall o, In o ofs -> hm s (f i + o) = Some (addr f (optr ob o));
  rp_df : forall o, dat_field bs ofs o = true -> hm s (f i + o) = Some (odat ob o)
}.
Record rel (s : hst) (L : list chunk) (ls : Z -> list Z) (r : list Z) (f : nat -> Z) (st : store) : Prop := {
  rl_inv : hinv s L ls;
  rl_td : forall t tag bs ofs, tys t = Some (tag, bs, ofs) -> tdesc (hm s) L tag bs ofs;
  rl_vars : r = map (addr f) (vars st);
  rl_rep : forall i, areach st i -> exists ob tag bs ofs, rep s L ls f st i ob tag bs ofs;
  rl_inj : forall i j, areach st i -> areach st j -> f i = f j -> i = j
}.
Lemma recb_ptr : forall a bs tag ofs, ptr (recb a bs tag ofs) = a.
Proof. intros. unfold ptr, recb. cbn [ba]. lia. Qed.
Lemma rep_pos : forall s L ls f st i ob tag bs ofs, hinv s L ls -> rep s L ls f st i ob tag bs ofs -> 0 < f i.
Proof. intros s L ls f st i ob tag bs ofs HI R. destruct (blk_al _ _ _ HI _ (rp_in _ _ _ _ _ _ _ _ _ _ R)) as (_ & Q & _). cbn [recb ba] in Q. lia. Qed.
(** Fewer objects in use. *)
Lemma rel_shrink : forall s L ls f st vs, (forall i, areach {| vars := vs; objects := objects st |} i -> areach st i) -> rel s L ls (map (addr f) (vars st)) f st -> rel s L ls (map (addr f) vs) f {| vars := vs; objects := objects st |}.
Proof.
  intros s L ls f st vs H [R1 R2 R3 R4 R5]. constructor; auto. intros i I. destruct (R4 i (H i I)) as (ob & tag & bs & ofs & [Q1 Q2 Q3 Q4 Q5 Q6]). exists ob, tag, bs, ofs. constructor; auto.
Qed.
Lemma in_set_nth : forall {A} n (x y : A) l, In y (set_nth n x l) -> y = x \/ In y l.
Proof. intros A. induction n as [|n IH]; intros x y [|z l] I; cbn [set_nth In] in *; auto; destruct I as [I|I]; auto. destruct (IH _ _ _ I); auto. Qed.
Lemma map_set_nth : forall {A B} (g : A -> B) n x l, map g (set_nth n x l) = set_nth n (g x) (map g l).
Proof. intros A B g. induction n as [|n IH]; intros x [|z l]; cbn [set_nth map]; auto. f_equal. auto. Qed.
Lemma areach_vars : forall st vs, (forall i, In (Some i) vs -> areach st i) -> forall i, areach {| vars := vs; objects := objects st |} i -> areach st i.
Proof. intros st vs H i R. induction R as [i I|i ob tag bs ofs o j R IH N T O Q]; [apply H; auto|]. apply (ar_fld st i ob tag bs ofs o j); auto. Qed.
Lemma assign_rel : forall s L ls r f st d x st1, rel s L ls r f st -> setv st d x = Some st1 -> (forall i, x = Some i -> areach st i) ->
  setc r d (addr f x) = Ok (map (addr f) (vars st1)) /\ rel s L ls (map (addr f) (vars st1)) f st1.
Proof.
  intros s L ls r f st d x st1 R E A. unfold setv in E. destruct (d <? length (vars st))%nat eqn:D; [|discriminate]. inversion E; subst st1. cbn [vars]. pose proof (rl_vars _ _ _ _ _ _ R) as ->. split.
  - unfold setc. rewrite map_length, D. rewrite map_set_nth. reflexivity.
  - apply rel_shrink; auto. apply areach_vars. intros i I. apply in_set_nth in I. destruct I as [I|I]; [apply A; auto|apply ar_var; auto].
Qed.
Lemma getc_rel : forall s L ls r f st v x, rel s L ls r f st -> nth_error (vars st) v = Some x -> getc r v = Ok (addr f x) /\ (forall i, x = Some i -> areach st i).
Proof.
  intros s L ls r f st v x R E. unfold getc. rewrite (rl_vars _ _ _ _ _ _ R), nth_error_map, E. split; auto. intros i ->. apply ar_var. apply (nth_error_In _ _ E).
Qed.
Lemma deref_rel : forall s L ls r f st v i ob bs ofs, rel s L ls r f st -> deref tys st v = Some (i, ob, bs, ofs) ->
  getc r v = Ok (f i) /\ areach st i /\ exists tag, rep s L ls f st i ob tag bs ofs.
Proof.
  intros s L ls r f st v i ob bs ofs R E. unfold deref in E. destruct (nth_error (vars st) v) as [[i'|]|] eqn:V; try discriminate. destruct (nth_error (objects st) i') as [ob'|] eqn:O; try discriminate. destruct (tys (oty ob')) as [[[tag bs'] ofs']|] eqn:T; try discriminate. inversion E; subst.
  destruct (getc_rel _ _ _ _ _ _ _ _ R V) as [G A]. specialize (A i eq_refl). split; auto. split; auto. destruct (rl_rep _ _ _ _ _ _ R i A) as (ob2 & tag2 & bs2 & ofs2 & Q). pose proof Q as [Q1 Q2 _ _ _ _]. assert (ob2 = ob) by congruence. subst ob2. rewrite T in Q2. inversion Q2; subst. exists tag2. auto.
Qed.
(** The objects in use are alive for the collector. *)
Lemma areach_alive : forall s L ls r f st t i ob tag bs ofs, rel s L ls r f st -> areach st i -> rep s L ls f st i ob tag bs ofs -> alive s L (firstn (e_k e) r) (skipn (e_k e) r ++ e_junk e t) [] (recb (f i) bs tag ofs).
Proof.
  intros s L ls r f st t i ob tag bs ofs R A Q. pose proof (rl_inv _ _ _ _ _ _ R) as HI.
  assert (G : forall i, areach st i -> exists q, root_of L (firstn (e_k e) r) (skipn (e_k e) r ++ e_junk e t) q /\ reach (graph_of (hm s) L) q (f i)).
  { clear i ob tag bs ofs A Q. intros i A. induction A as [i I|i ob tag bs ofs o j A IH N T O J].
    - assert (Ai : areach st i) by (apply ar_var; auto). destruct (rl_rep _ _ _ _ _ _ R i Ai) as (ob & tag & bs & ofs & Q). pose proof (rep_pos _ _ _ _ _ _ _ _ _ _ HI Q) as Po. exists (f i). split; [|apply reach_root; lia].
      assert (Ir : In (f i) r) by (rewrite (rl_vars _ _ _ _ _ _ R); change (f i) with (addr f (Some i)); apply in_map; auto). rewrite <- (firstn_skipn (e_k e) r) in Ir. apply in_app_or in Ir. destruct Ir as [Ir|Ir]; [left; auto|]. right.
      exists (recb (f i) bs tag ofs), (f i). pose proof (rp_in _ _ _ _ _ _ _ _ _ _ Q) as Ib. split; auto. split; [apply in_or_app; auto|]. rewrite recb_ptr. split; auto. destruct (blk_al _ _ _ HI _ Ib) as (_ & _ & Sz). cbn [recb ba bsz] in *. lia.
    - destruct IH as (q & Q1 & Q2). exists q. split; auto. destruct (rl_rep _ _ _ _ _ _ R i A) as (ob2 & tag2 & bs2 & ofs2 & Q). pose proof Q as [P1 P2 P3 P4 P5 P6]. assert (ob2 = ob) by congruence. subst ob2. rewrite T in P2. inversion P2; subst.
      assert (Aj : areach st j) by (apply (ar_fld st i ob tag2 bs2 ofs2 o j); auto). destruct (rl_rep _ _ _ _ _ _ R j Aj) as (obj & tagj & bsj & ofsj & Qj). pose proof (rep_pos _ _ _ _ _ _ _ _ _ _ HI Qj).
      apply (reach_step _ _ (f i) o); auto; [|lia]. rewrite <- (recb_ptr (f i) bs2 tag2 ofs2). rewrite (g_flds _ _ _ _ (hi_ok _ _ _ HI)) by auto. rewrite recb_ptr. apply in_map_iff. exists o. split; auto. f_equal. unfold val. rewrite P5 by auto. rewrite J. reflexivity. }
  destruct (G i A) as (q & Q1 & Q2). exists q. rewrite recb_ptr. auto.
Qed.
(** The heap changes, the objects in use stay. *)
Lemma evolves_rel : forall s L ls r f st t s' L' ls', rel s L ls r f st -> evolves (alive s L (firstn (e_k e) r) (skipn (e_k e) r ++ e_junk e t) []) s L ls s' L' ls' -> rel s' L' ls' r f st.
Proof.
  intros s L ls r f st t s' L' ls' R [E1 E2 E3]. pose proof (rl_inv _ _ _ _ _ _ R) as HI. constructor; auto.
  - intros t0 tag bs ofs T. apply (tdesc_move (hm s) L); auto. apply (rl_td _ _ _ _ _ _ R t0). auto.
  - apply (rl_vars _ _ _ _ _ _ R).
  - intros i A. destruct (rl_rep _ _ _ _ _ _ R i A) as (ob & tag & bs & ofs & Q). pose proof (areach_alive _ _ _ _ _ _ t _ _ _ _ _ R A Q) as AL. exists ob, tag, bs, ofs. destruct Q as [Q1 Q2 Q3 Q4 Q5 Q6].
    destruct (E2 _ Q3 Q4 AL) as (K1 & K2 & K3). cbn [recb ba bsz] in *. pose proof (rl_td _ _ _ _ _ _ R _ _ _ _ Q2) as TD. destruct (ptr_al16 L _ (ho_placed _ _ _ _ (hi_ok _ _ _ HI)) Q3) as (k & K). rewrite recb_ptr in K.
    constructor; auto.
    + intros o O. destruct (td_ofs _ _ _ _ _ TD o O) as (O1 & O2 & (j & O3)). rewrite K3; auto; [lia|exists (2 * k + j); lia].
    + intros o O. rewrite K3; auto; unfold dat_field in O; rewrite !andb_true_iff in O; destruct O as [[[O1 O2] O3] O4]; [lia|]. exists (2 * k + o / 8). lia.
  - apply (rl_inj _ _ _ _ _ _ R).
Qed.
Definition refused : Prop := exists t m sz, e_os e t m sz = None.

Lemma new_rel : forall s L ls r f st t bs tag ofs s' L' ls' a d ty st1, rel s L ls r f st -> tys ty = Some (tag, bs, ofs) ->
  evolves (alive s L (firstn (e_k e) r) (skipn (e_k e) r ++ e_junk e t) []) s L ls s' L' ls' -> fresh (alive s L (firstn (e_k e) r) (skipn (e_k e) r ++ e_junk e t) []) L ls s' L' ls' (recb a bs tag ofs) -> a <> 0 ->
  setv {| vars := vars st; objects := objects st ++ [newobj ty] |} d (Some (length (objects st))) = Some st1 ->
  exists f', setc r d a = Ok (map (addr f') (vars st1)) /\ rel s' L' ls' (map (addr f') (vars st1)) f' st1.
Proof.
  intros s L ls r f st t bs tag ofs s' L' ls' a d ty st1 R T Ev Fr Na Sv. set (n := length (objects st)) in *. set (f' := fun i => if Nat.eqb i n then a else f i).
  unfold setv in Sv. cbn [vars objects] in Sv. destruct (d <? length (vars st))%nat eqn:D; [|discriminate]. inversion Sv; subst st1. clear Sv. cbn [vars].
  pose proof (evolves_rel _ _ _ _ _ _ _ _ _ _ R Ev) as R'. pose proof (rl_inv _ _ _ _ _ _ R') as HI'. pose proof (rl_vars _ _ _ _ _ _ R) as Vr.
  assert (Old : forall i, areach st i -> (i < n)%nat) by (intros i A; destruct (rl_rep _ _ _ _ _ _ R i A) as (ob & _ & _ & _ & [Q _ _ _ _ _]); apply nth_error_Some; congruence).
  assert (Fo : forall i, areach st i -> f' i = f i) by (intros i A; unfold f'; replace (Nat.eqb i n) with false; auto; symmetry; apply Nat.eqb_neq; specialize (Old i A); lia).
  assert (Fn : f' n = a) by (unfold f'; rewrite Nat.eqb_refl; auto).
  set (st1 := {| vars := set_nth d (Some n) (vars st); objects := objects st ++ [newobj ty] |}).
  assert (AR : forall i, areach st1 i -> i = n \/ areach st i).
  { intros i A. induction A as [i I|i ob tag' bs' ofs' o j A IH N T' O J].
    - cbn [st1 vars] in I. apply in_set_nth in I. destruct I as [I|I]; [left; congruence|right; apply ar_var; auto].
    - cbn [st1 objects] in N. destruct IH as [->|IH].
      + unfold n in N. rewrite nth_error_app2 in N by lia. rewrite Nat.sub_diag in N. cbn in N. injection N as <-. cbn in J. discriminate.
      + right. rewrite nth_error_app1 in N by (apply (Old i IH)). apply (ar_fld st i ob tag' bs' ofs' o j); auto. }
  assert (Vm : set_nth d a r = map (addr f') (vars st1)).
  { cbn [st1 vars]. rewrite map_set_nth. cbn [addr]. rewrite Fn, Vr. f_equal. apply map_ext_in. intros [i|] I; auto. cbn [addr]. symmetry. apply Fo. apply ar_var. auto. }
  exists f'. split; [unfold setc; rewrite Vr at 1; rewrite map_length, D; f_equal; exact Vm|].
  constructor; auto.
  - apply (rl_td _ _ _ _ _ _ R').
  - intros i A. destruct (AR i A) as [->|A'].
    + exists (newobj ty), tag, bs, ofs. pose proof (rl_td _ _ _ _ _ _ R' _ _ _ _ T) as TD. destruct Fr as [F1 F2 F3 F4]. cbn [recb ba bsz] in *. destruct (ptr_al16 L' _ (ho_placed _ _ _ _ (hi_ok _ _ _ HI')) F1) as (k & K). rewrite recb_ptr in K.
      constructor; rewrite ?Fn; auto.
      * cbn [st1 objects]. unfold n. rewrite nth_error_app2 by lia. rewrite Nat.sub_diag. reflexivity.
      * intros o O. destruct (td_ofs _ _ _ _ _ TD o O) as (O1 & O2 & (j & O3)). rewrite F3; auto; [lia|exists (2 * k + j); lia].
      * intros o O. rewrite F3; auto; unfold dat_field in O; rewrite !andb_true_iff in O; destruct O as [[[O1 O2] O3] O4]; [lia|]. exists (2 * k + o / 8). lia.
    + destruct (rl_rep _ _ _ _ _ _ R' i A') as (ob & tag' & bs' & ofs' & [Q1 Q2 Q3 Q4 Q5 Q6]). exists ob, tag', bs', ofs'. constructor; rewrite ?Fo by auto; auto.
      * cbn [st1 objects]. rewrite nth_error_app1; auto.
      * intros o O. rewrite Q5 by auto. f_equal. destruct (optr ob o) as [j|] eqn:J; auto. cbn [addr]. symmetry. apply Fo. apply (ar_fld st i ob tag' bs' ofs' o j); auto.
  - assert (X : forall i, areach st i -> f i <> a).
    { intros i A E. destruct (rl_rep _ _ _ _ _ _ R i A) as (ob & tag' & bs' & ofs' & Q). pose proof (areach_alive _ _ _ _ _ _ t _ _ _ _ _ R A Q) as AL. destruct Q as [Q1 Q2 Q3 Q4 Q5 Q6]. pose proof (fr_apart _ _ _ _ _ _ _ Fr _ Q3 Q4 AL) as AP. cbn [recb ba bsz] in AP.
      destruct (blk_al _ _ _ (rl_inv _ _ _ _ _ _ R) _ Q3) as (_ & _ & S1). destruct (blk_al _ _ _ HI' _ (fr_in _ _ _ _ _ _ _ Fr)) as (_ & _ & S2). cbn [recb bsz] in *. lia. }
    intros i j A B E. destruct (AR i A) as [->|A'], (AR j B) as [->|B']; auto; rewrite ?Fn, ?Fo in E by auto.
    + exfalso. apply (X j); auto.
    + exfalso. apply (X i); auto.
    + apply (rl_inj _ _ _ _ _ _ R); auto.
Qed.
Lemma store_rel : forall s L ls r f st i ob tag bs ofs o v ob', rel s L ls r f st -> areach st i -> rep s L ls f st i ob tag bs ofs -> 0 <= o -> o + 16 <= bs -> (exists k, o = 8 * k) ->
  oty ob' = oty ob -> (forall o', In o' ofs -> o' <> o -> optr ob' o' = optr ob o') -> (forall o', o' <> o -> odat ob' o' = odat ob o') ->
  ((In o ofs /\ v = addr f (optr ob' o) /\ forall j, optr ob' o = Some j -> areach st j) \/ (dat_field bs ofs o = true /\ v = odat ob' o)) ->
  put (hm s) (f i + o) v = Ok (upd (hm s) (f i + o) v) /\ rel (setmem (upd (hm s) (f i + o) v) s) L ls r f {| vars := vars st; objects := set_nth i ob' (objects st) |}.
Proof.
  intros s L ls r f st i ob tag bs ofs o v ob' R A Q O1 O2 O3 E1 E2 E3 C. pose proof (rl_inv _ _ _ _ _ _ R) as HI. pose proof Q as [Q1 Q2 Q3 Q4 Q5 Q6]. pose proof (rl_td _ _ _ _ _ _ R _ _ _ _ Q2) as TD. pose proof (ho_placed _ _ _ _ (hi_ok _ _ _ HI)) as P.
  set (b := recb (f i) bs tag ofs) in *. assert (Pb : ptr b = f i) by apply recb_ptr.
  assert (DF : forall o, dat_field bs ofs o = true -> ~ In o ofs /\ 0 <= o /\ o + 16 <= bs) by (intros o0 H; unfold dat_field in H; rewrite !andb_true_iff, negb_true_iff, isin_false in H; destruct H as [[[H1 H2] H3] H4]; split; auto; lia).
  destruct (live_put s L ls b o v HI Q3 Q4 O1 O2 O3) as [HI' Mp].
  { intros k K E. apply (td_out _ _ _ _ _ TD k K). cbn [b recb btag] in E. rewrite <- E. apply (block_in L 1 b); auto. unfold ptr, b in *. cbn [recb ba bsz] in *. lia. }
  { intro Io. cbn [b recb bofs] in Io. destruct C as [(_ & -> & J)|(D & _)]; [|destruct (DF o D); tauto]. destruct (optr ob' o) as [j|]; auto. right. cbn [addr]. specialize (J j eq_refl).
    destruct (rl_rep _ _ _ _ _ _ R j J) as (obj & tagj & bsj & ofsj & [J1 J2 J3 J4 J5 J6]). split; auto. rewrite <- (recb_ptr (f j) bsj tagj ofsj). apply in_map. auto. }
  rewrite Pb in *. split; [apply put_chain; auto|]. set (a := f i + o) in *.
  assert (Li : (i < length (objects st))%nat) by (apply nth_error_Some; congruence).
  set (st1 := {| vars := vars st; objects := set_nth i ob' (objects st) |}).
  assert (AR : forall j, areach st1 j -> areach st j).
  { intros j B. induction B as [j I|j ob2 tag2 bs2 ofs2 o2 j2 B IH N T O J]; [apply ar_var; auto|]. cbn [st1 objects] in N. destruct (Nat.eq_dec i j) as [<-|Nij].
    - rewrite nth_set_nth_eq in N by auto. inversion N; subst ob2. rewrite E1 in T. rewrite Q2 in T. inversion T; subst. destruct (Z.eq_dec o2 o) as [->|No].
      + destruct C as [(_ & _ & C)|(D & _)]; [apply C; auto|]. destruct (DF o D). tauto.
      + apply (ar_fld st i ob tag2 bs2 ofs2 o2 j2); auto. rewrite <- E2; auto.
    - rewrite nth_set_nth_neq in N by auto. apply (ar_fld st j ob2 tag2 bs2 ofs2 o2 j2); auto. }
  constructor; auto.
  - intros t0 tag0 bs0 ofs0 T. apply (tdesc_move (hm s) L); [|apply (rl_td _ _ _ _ _ _ R t0); auto]. intros x X Nx. split; auto. cbn [setmem hm]. apply upd_other. intros ->. apply Nx. apply (block_in L 1 b); auto. unfold a, b. cbn [recb ba bsz]. lia.
  - apply (rl_vars _ _ _ _ _ _ R).
  - intros j B. apply AR in B. destruct (Nat.eq_dec i j) as [<-|Nij].
    + exists ob', tag, bs, ofs. constructor; auto; cbn [st1 objects setmem hm].
      * apply nth_set_nth_eq; auto.
      * rewrite E1; auto.
      * intros o' O'. destruct (Z.eq_dec o' o) as [->|No].
        -- destruct C as [(_ & -> & _)|(D & _)]; [unfold a; apply upd_same|destruct (DF o D); tauto].
        -- unfold a. rewrite upd_other by lia. rewrite Q5 by auto. rewrite E2; auto.
      * intros o' O'. destruct (Z.eq_dec o' o) as [->|No].
        -- destruct C as [(D & _)|(_ & ->)]; [destruct (DF o O'); tauto|unfold a; apply upd_same].
        -- unfold a. rewrite upd_other by lia. rewrite Q6 by auto. rewrite E3; auto.
    + destruct (rl_rep _ _ _ _ _ _ R j B) as (obj & tagj & bsj & ofsj & Qj). pose proof Qj as [J1 J2 J3 J4 J5 J6]. exists obj, tagj, bsj, ofsj.
      assert (Nf : f i <> f j) by (intro E; apply Nij; apply (rl_inj _ _ _ _ _ _ R); auto).
      assert (Ot : forall o', 0 <= o' -> o' + 16 <= bsj -> f j + o' <> a).
      { intros o' P1 P2 E. apply Nf. assert (Eb : b = recb (f j) bsj tagj ofsj) by (apply (block_same L 1 _ _ a P); auto; unfold a, b in *; cbn [recb ba bsz]; lia). unfold b in Eb. apply (f_equal ba) in Eb. cbn [recb ba] in Eb. lia. }
      pose proof (rl_td _ _ _ _ _ _ R _ _ _ _ J2) as TDj.
      constructor; auto; cbn [st1 objects setmem hm].
      * rewrite nth_set_nth_neq; auto.
      * intros o' O'. destruct (td_ofs _ _ _ _ _ TDj o' O') as (P1 & P2 & _). rewrite upd_other by (apply Ot; auto). auto.
      * intros o' O'. pose proof O' as O2'. unfold dat_field in O2'. rewrite !andb_true_iff in O2'. destruct O2' as [[[P1 P2] _] _]. rewrite upd_other by (apply Ot; lia). auto.
  - intros j1 j2 A1 A2. apply (rl_inj _ _ _ _ _ _ R); auto.
Qed.
Lemma roots_ok : forall s L ls r f st, rel s L ls r f st -> Forall (fun q => q = 0 \/ In q (map ptr (blocks L))) (firstn (e_k e) r).
Proof.
  intros s L ls r f st R. apply Forall_forall. intros q Q. assert (I : In q r) by (rewrite <- (firstn_skipn (e_k e) r); apply in_or_app; auto). rewrite (rl_vars _ _ _ _ _ _ R) in I. apply in_map_iff in I. destruct I as ([i|] & <- & I); auto. right. cbn [addr].
  destruct (rl_rep _ _ _ _ _ _ R i (ar_var _ _ I)) as (ob & tag & bs & ofs & [Q1 Q2 Q3 Q4 Q5 Q6]). rewrite <- (recb_ptr (f i) bs tag ofs). apply in_map. auto.
Qed.
Definition good (s : hst) (r : list Z) (st : store) : Prop := exists L ls f, rel s L ls r f st.
Lemma step : forall t p s r st, good s r st -> exists N full, (full = true -> refused) /\ forall st1 o1, astep tys full p st = Some (st1, o1) ->
  exists s1 r1, (forall fuel, (N <= fuel)%nat -> cstep fuel e t p s r = Ok (s1, r1, o1)) /\ good s1 r1 st1.
Proof.
  intros t p s r st (L & ls & f & R). pose proof (rl_inv _ _ _ _ _ _ R) as HI. pose proof (roots_ok _ _ _ _ _ _ R) as VR.
  assert (SET : forall d x st1, setv st d x = Some st1 -> (forall i, x = Some i -> areach st i) -> setc r d (addr f x) = Ok (map (addr f) (vars st1)) /\ good s (map (addr f) (vars st1)) st1).
  { intros d x st1 S A. destruct (assign_rel _ _ _ _ _ _ _ _ _ R S A) as [Q1 Q2]. split; auto. exists L, ls, f. auto. }
  destruct p as [d ty|d v|d|d v o|d o v|v o|d o w|v w|]; cbn [cstep].
  - (* NEW *)
    destruct (tys ty) as [[[tag bs] ofs]|] eqn:T; [|exists O, false; split; [discriminate|]; intros st1 o1 E; cbn [astep] in E; rewrite T in E; discriminate].
    destruct (NEWREC_spec s L ls (e_os e) nopush (firstn (e_k e) r) (skipn (e_k e) r ++ e_junk e t) [] [] tag bs ofs HI Ho (rl_td _ _ _ _ _ _ R _ _ _ _ T) VR ltac:(intros ? [])) as (N & a & s' & L' & ls' & fs' & c' & A1 & A2 & A3 & A4).
    exists N. destruct A3 as [(-> & t0 & m0 & sz & _ & Rf)|(Na & Fr)].
    + exists true. split; [intros _; exists t0, m0, sz; auto|]. intros st1 o1 E. cbn [astep] in E. rewrite T in E. destruct (setv st d None) as [st2|] eqn:S; [|discriminate]. inversion E; subst.
      pose proof (evolves_rel _ _ _ _ _ _ _ _ _ _ R A2) as R'. destruct (assign_rel _ _ _ _ _ _ _ _ _ R' S ltac:(discriminate)) as [Q1 Q2]. cbn [addr] in Q1.
      exists s', (map (addr f) (vars st1)). split; [|exists L', ls', f; auto]. intros fuel F. unfold tys in T. rewrite T. rewrite A1 by auto. rewrite bind_ok. cbv iota beta. rewrite Q1, bind_ok. reflexivity.
    + exists false. split; [discriminate|]. intros st1 o1 E. cbn [astep] in E. rewrite T in E. destruct (setv {| vars := vars st; objects := objects st ++ [newobj ty] |} d (Some (length (objects st)))) as [st2|] eqn:S; [|discriminate]. inversion E; subst.
      destruct (new_rel _ _ _ _ _ _ _ _ _ _ _ _ _ _ _ _ _ R T A2 Fr Na S) as (f' & Q1 & Q2). exists s', (map (addr f') (vars st1)). split; [|exists L', ls', f'; auto]. intros fuel F. unfold tys in T. rewrite T. rewrite A1 by auto. rewrite bind_ok. cbv iota beta. rewrite Q1, bind_ok. reflexivity.
  - exists O, false. split; [discriminate|]. intros st1 o1 E. cbn [astep] in E. destruct (nth_error (vars st) v) as [x|] eqn:V; [|discriminate]. destruct (setv st d x) as [st2|] eqn:S; [|discriminate]. inversion E; subst.
    destruct (getc_rel _ _ _ _ _ _ _ _ R V) as [G A]. destruct (SET _ _ _ S A) as [Q1 Q2]. exists s, (map (addr f) (vars st1)). split; auto. intros fuel _. rewrite G, bind_ok, Q1, bind_ok. reflexivity.
  - exists O, false. split; [discriminate|]. intros st1 o1 E. cbn [astep] in E. destruct (setv st d None) as [st2|] eqn:S; [|discriminate]. inversion E; subst. destruct (SET _ _ _ S ltac:(discriminate)) as [Q1 Q2]. cbn [addr] in Q1. exists s, (map (addr f) (vars st1)). split; auto. intros fuel _. rewrite Q1, bind_ok. reflexivity.
  - exists O, false. split; [discriminate|]. intros st1 o1 E. cbn [astep] in E. destruct (deref tys st v) as [[[[i ob] bs] ofs]|] eqn:D; [|discriminate]. destruct (ptr_field ofs o) eqn:F; [|discriminate]. destruct (setv st d (optr ob o)) as [st2|] eqn:S; [|discriminate]. inversion E; subst.
    destruct (deref_rel _ _ _ _ _ _ _ _ _ _ _ R D) as (G & A & tag & Q). apply isin_true in F. destruct (SET _ _ _ S) as [Q1 Q2]; [intros j J; destruct Q as [P1 P2 _ _ _ _]; apply (ar_fld st i ob tag bs ofs o j); auto|].
    exists s, (map (addr f) (vars st1)). split; auto. intros fuel _. rewrite G, bind_ok. rewrite (get_ok _ _ _ (rp_pf _ _ _ _ _ _ _ _ _ _ Q o F)), bind_ok. rewrite Q1, bind_ok. reflexivity.
  - exists O, false. split; [discriminate|]. intros st1 o1 E. cbn [astep] in E. destruct (deref tys st d) as [[[[i ob] bs] ofs]|] eqn:D; [|discriminate]. destruct (nth_error (vars st) v) as [x|] eqn:V; [|discriminate]. destruct (ptr_field ofs o) eqn:F; [|discriminate]. inversion E; subst.
    destruct (deref_rel _ _ _ _ _ _ _ _ _ _ _ R D) as (G & A & tag & Q). apply isin_true in F. destruct (getc_rel _ _ _ _ _ _ _ _ R V) as [G2 A2]. destruct (td_ofs _ _ _ _ _ (rl_td _ _ _ _ _ _ R _ _ _ _ (rp_ty _ _ _ _ _ _ _ _ _ _ Q)) o F) as (O1 & O2 & O3).
    destruct (store_rel _ _ _ _ _ _ _ _ _ _ _ o (addr f x) {| oty := oty ob; optr := fset (optr ob) o x; odat := odat ob |} R A Q O1 O2 O3) as [P1 P2]; cbn [oty optr odat]; auto.
    { intros o' _ No. unfold fset. replace (o' =? o) with false by lia. auto. }
    { left. split; auto. unfold fset. rewrite Z.eqb_refl. split; auto. }
    eexists _, r. split; [|exists L, ls, f; exact P2]. intros fuel _. rewrite G, bind_ok, G2, bind_ok, P1, bind_ok. reflexivity.
  - exists O, false. split; [discriminate|]. intros st1 o1 E. cbn [astep] in E. destruct (deref tys st v) as [[[[i ob] bs] ofs]|] eqn:D; [|discriminate]. destruct (dat_field bs ofs o) eqn:F; [|discriminate]. inversion E; subst.
    destruct (deref_rel _ _ _ _ _ _ _ _ _ _ _ R D) as (G & A & tag & Q). exists s, r. split; [|exists L, ls, f; auto]. intros fuel _. rewrite G, bind_ok. rewrite (get_ok _ _ _ (rp_df _ _ _ _ _ _ _ _ _ _ Q o F)), bind_ok. reflexivity.
  - exists O, false. split; [discriminate|]. intros st1 o1 E. cbn [astep] in E. destruct (deref tys st d) as [[[[i ob] bs] ofs]|] eqn:D; [|discriminate]. destruct (dat_field bs ofs o) eqn:F; [|discriminate]. inversion E; subst.
    destruct (deref_rel _ _ _ _ _ _ _ _ _ _ _ R D) as (G & A & tag & Q). pose proof F as F2. unfold dat_field in F2. rewrite !andb_true_iff in F2. destruct F2 as [[[O1 O2] O3] O4].
    destruct (store_rel _ _ _ _ _ _ _ _ _ _ _ o w {| oty := oty ob; optr := optr ob; odat := fset (odat ob) o w |} R A Q ltac:(lia) ltac:(lia) ltac:(exists (o / 8); lia)) as [P1 P2]; cbn [oty optr odat]; auto.
    { intros o' No. unfold fset. replace (o' =? o) with false by lia. auto. }
    { right. split; auto. unfold fset. rewrite Z.eqb_refl. auto. }
    eexists _, r. split; [|exists L, ls, f; exact P2]. intros fuel _. rewrite G, bind_ok, P1, bind_ok. reflexivity.
  - exists O, false. split; [discriminate|]. intros st1 o1 E. cbn [astep] in E. destruct (nth_error (vars st) v) as [x|] eqn:V; [|discriminate]. destruct (nth_error (vars st) w) as [y|] eqn:W; [|discriminate]. inversion E; subst.
    destruct (getc_rel _ _ _ _ _ _ _ _ R V) as [G A]. destruct (getc_rel _ _ _ _ _ _ _ _ R W) as [G2 A2]. exists s, r. split; [|exists L, ls, f; auto]. intros fuel _. rewrite G, bind_ok, G2, bind_ok. do 4 f_equal. 
    assert (Pos : forall i, areach st1 i -> 0 < f i) by (intros i Ai; destruct (rl_rep _ _ _ _ _ _ R i Ai) as (ob & tag & bs & ofs & Q); apply (rep_pos _ _ _ _ _ _ _ _ _ _ HI Q)).
    destruct x as [i|], y as [j|]; cbn [addr].
    + destruct (Nat.eqb i j) eqn:Eij; [apply Nat.eqb_eq in Eij; subst; rewrite Z.eqb_refl; auto|]. apply Nat.eqb_neq in Eij. replace (f i =? f j) with false; auto. symmetry. apply Z.eqb_neq. intro Q. apply Eij. apply (rl_inj _ _ _ _ _ _ R); auto.
    + specialize (Pos i (A i eq_refl)). replace (f i =? 0) with false by lia. auto.
    + specialize (Pos j (A2 j eq_refl)). replace (0 =? f j) with false by lia. auto.
    + reflexivity.
  - destruct (GC_spec s L ls nopush (firstn (e_k e) r) (skipn (e_k e) r ++ e_junk e t) [] [] HI VR ltac:(intros ? [])) as (N & s' & L' & ls' & M & M1 & fs1 & fs2 & c2 & A2 & C2 & D1 & D2 & _).
    exists N, false. split; [discriminate|]. intros st1 o1 E. cbn [astep] in E. inversion E; subst. exists s', r. split; [intros fuel F; rewrite A2 by auto; rewrite bind_ok; reflexivity|]. exists L', ls', f.
    apply (evolves_rel s L ls r f st1 t s' L' ls'); auto. apply (evolves_weaken (fun b => In (ptr b) M)); [|apply collected_evolves; auto]. intros b (q & [Q|(n & [] & _)] & Rq). apply D2. left. apply D1. exists q. auto.
Qed.
Lemma run : forall ps t s r st, good s r st -> exists N fulls, length fulls = length ps /\ (In true fulls -> refused) /\ forall st1 os, arun tys fulls ps st = Some (st1, os) ->
  exists s1 r1, (forall fuel, (N <= fuel)%nat -> crun fuel e t ps s r = Ok (s1, r1, os)) /\ good s1 r1 st1.
Proof.
  induction ps as [|p ps IH]; intros t s r st G.
  - exists O, []. split; auto. split; [intros []|]. intros st1 os E. cbn in E. inversion E; subst. exists s, r. split; auto.
  - destruct (step t p s r st G) as (N1 & full & B1 & S1). destruct (astep tys full p st) as [[st2 o2]|] eqn:A.
    + destruct (S1 st2 o2 eq_refl) as (s2 & r2 & C & G2). destruct (IH (S t) s2 r2 st2 G2) as (N2 & fulls & Ln & B2 & S2). exists (N1 + N2)%nat, (full :: fulls). split; [cbn [length]; congruence|]. split; [intros [Q|Q]; auto|].
      intros st1 os E. cbn [arun] in E. rewrite A in E. destruct (arun tys fulls ps st2) as [[st3 os3]|] eqn:A3; [|discriminate]. inversion E; subst. destruct (S2 st1 os3 eq_refl) as (s1 & r1 & C1 & G1). exists s1, r1. split; auto.
      intros fuel F. cbn [crun]. rewrite C by lia. rewrite bind_ok. cbv iota beta. rewrite C1 by lia. rewrite bind_ok. reflexivity.
    + exists N1, (full :: repeat false (length ps)). split; [cbn [length]; rewrite repeat_length; auto|]. split; [intros [Q|Q]; auto; apply repeat_spec in Q; discriminate|]. intros st1 os E. cbn [arun] in E. rewrite A in E. discriminate.
Qed.
End T.

(** * The initial heap *)
Lemma InitHeap_spec : forall os (m : mem), honest os -> (forall c junk, os O m 256024 = Some (c, junk) -> c + 256024 <= 2 ^ 64 - 1) ->
  os O m 256024 = None \/ exists s L ls, InitHeap os m = Ok s /\ hinv s L ls /\ (forall a, m a <> None -> hm s a = m a /\ ~ inside L a) /\ (forall b, In b (blocks L) -> free ls (ba b)).
Proof.
  intros os m Ho Hb. destruct (os O m 256024) as [[c junk]|] eqn:E; [right|left; auto]. destruct (Ho _ _ _ _ _ E) as (C0 & (ck & CK) & Fre). specialize (Hb c junk eq_refl).
  set (size := 256000). set (m0 := mapped m c (size + 24) junk).
  assert (M0 : forall a, ~ (c <= a < c + (size + 24)) -> m0 a = m a).
  { intros a A. unfold m0, mapped. destruct ((c <=? a) && (a <? c + (size + 24)) && (a mod 8 =? 0)) eqn:Q; auto. apply andb_true_iff in Q. destruct Q as [Q _]. apply andb_true_iff in Q. lia. }
  assert (M1 : forall a, c <= a < c + (size + 24) -> (exists k, a = 8 * k) -> m0 a <> None).
  { intros a A (i & I). unfold m0, mapped. replace (c <=? a) with true by lia. replace (a <? c + (size + 24)) with true by lia. replace (a mod 8) with 0 by (subst a; rewrite Z.mul_comm, Z.mod_mul; lia). cbn. discriminate. }
  assert (D8 : m0 (c + 8) <> None) by (apply M1; [unfold size; lia|exists (2 * ck + 1); lia]). assert (D24 : m0 (c + 24) <> None) by (apply M1; [unfold size; lia|exists (2 * ck + 3); lia]). assert (D32 : m0 (c + 24 + 8) <> None) by (apply M1; [unfold size; lia|exists (2 * ck + 4); lia]).
  assert (D40 : m0 (c + 24 + 16) <> None) by (apply M1; [unfold size; lia|exists (2 * ck + 5); lia]). assert (D48 : m0 (c + 24 + 24) <> None) by (apply M1; [unfold size; lia|exists (2 * ck + 6); lia]). assert (Dc : m0 c <> None) by (apply M1; [unfold size; lia|exists (2 * ck); lia]).
  set (m6 := upd (upd (upd (upd (upd (upd m0 (c + 8) (c + 24 + size)) (c + 24) (c + 24 + 8)) (c + 24 + 8) size) (c + 24 + 16) (-8)) (c + 24 + 24) 0) c 0).
  exists {| hm := m6; fl := [0; 0; 0; 0; 0; 0; 0; 0; 0; 1]; big := c + 24; allocd := 0; heap := c; hmin := c + 24 + 8; hmax := c + 24 + size; hsize := size; hexp := size; tick := 1 |}, [newchunk c size], (fun i => if i =? 9 then [c + 24] else []).
  assert (Mx : forall a, ~ (c <= a < c + (size + 24)) -> m6 a = m a) by (intros a A; unfold m6; rewrite !upd_other by (unfold size in *; lia); auto).
  split; [|split; [|split]].
  - unfold InitHeap. change (8000 * 32) with size. unfold NewChunk. cbn [tick hm]. change (size + 24) with 256024. rewrite E. fold m0. change 256024 with (size + 24). fold m0. cbn [big].
    rewrite put_chain by auto. rewrite bind_ok. rewrite put_chain by (repeat apply upd_dom; auto). rewrite bind_ok. rewrite put_chain by (repeat apply upd_dom; auto). rewrite bind_ok. rewrite put_chain by (repeat apply upd_dom; auto). rewrite bind_ok. rewrite put_chain by (repeat apply upd_dom; auto). rewrite bind_ok. rewrite bind_ok. cbn [hm fl big allocd heap hmin hmax hsize hexp tick].
    rewrite put_chain by (repeat apply upd_dom; auto). rewrite bind_ok. change (setA (repeat 0 10) 9 1) with (Ok [0; 0; 0; 0; 0; 0; 0; 0; 0; 1]). rewrite bind_ok. replace (c + 24 + 8 <? 2 ^ 64 - 1) with true by lia. replace (0 <? c + 24 + size) with true by (unfold size; lia). reflexivity.
  - assert (W : words m6 (c + 24) [c + 24 + 8; size; -8; 0]).
    { cbn [words]. replace (c + 24 + 8 + 8) with (c + 24 + 16) by lia. replace (c + 24 + 16 + 8) with (c + 24 + 24) by lia. unfold m6. split; [|split; [|split; [|split]]]; auto.
      - rewrite !upd_other by lia. apply upd_same.
      - rewrite !upd_other by lia. apply upd_same.
      - rewrite !upd_other by lia. apply upd_same.
      - rewrite !upd_other by lia. apply upd_same. }
    assert (BL : forall b, In b (blocks [newchunk c size]) -> b = freeb (c + 24) size) by (intros b [Q|[]]; auto).
    constructor; cbn [hm fl big heap hmin hmax hsize hexp].
    + constructor.
      * cbn [placed newchunk ca ce cb tiles freeb ba bsz]. split; [lia|]. split; auto. split; [exists ck; auto|]. split; auto. split; auto. split; [exists 8000; unfold size; lia|lia].
      * cbn [chained newchunk ca ce]. split; auto. split; [unfold m6; rewrite !upd_other by lia; apply upd_same|]. exists 0. split; auto. unfold m6. apply upd_same.
      * intros a (d & [<-|[]] & A) Ka. cbn [newchunk ca ce] in A. unfold m6. repeat apply upd_dom. apply M1; auto. lia.
      * intros b B. rewrite (BL b B). constructor; cbn [btag bofs freeb ba bsz]; [|constructor|intros o []|].
        -- replace (c + 24 + 8) with (2 * (8 * ck + 16)) by lia. rewrite Z.odd_mul. reflexivity.
        -- right. unfold ptr. cbn [ba freeb]. rewrite zlen_nil. split; [lia|]. split; [unfold size; lia|]. intros o [].
      * intros b B. rewrite (BL b B). unfold table. cbn [btag bofs freeb bsz app]. rewrite zlen_nil. cbn [words] in *. tauto.
      * intros b B. rewrite (BL b B). cbn [btag bofs freeb ba]. replace (isin _ []) with false by reflexivity. rewrite Z.add_0_r. cbn [words] in W. tauto.
      * intros b o B O. rewrite (BL b B) in O. destruct O.
    + constructor; [reflexivity|intro Q; vm_compute in Q; discriminate| |cbn].
      * intros i I. replace (i =? 9) with false by lia. assert (Q : i = 1 \/ i = 2 \/ i = 3 \/ i = 4 \/ i = 5 \/ i = 6 \/ i = 7 \/ i = 8) by lia. repeat destruct Q as [->|Q]; subst; exact eq_refl.
      * split; auto. split; [lia|]. exists 0. split; auto. cbn [words] in W. replace (c + 24 + 24) with (c + 24 + 8 + 8 + 8) by lia. tauto.
    + intros i a I A. destruct (i =? 9) eqn:Q; [|destruct A]. destruct A as [<-|[]]. exists (freeb (c + 24) size). cbn [freeb ba btag bofs]. split; [left; auto|]. conjs; auto; lia.
    + intros i I. destruct (i =? 9); repeat constructor. intros [].
    + intros i j a I J A B. destruct (i =? 9) eqn:Q1; [|destruct A]. destruct (j =? 9) eqn:Q2; [lia|destruct B].
    + intros b o B O. rewrite (BL b B) in O. destruct O.
    + intros b B. rewrite (BL b B). unfold ptr. cbn [freeb ba bsz]. lia.
    + discriminate.
    + exists 8000. unfold size. lia.
    + exists 8000. unfold size. lia.
  - intros a A. assert (N : ~ (c <= a < c + (size + 24))) by (intro Q; apply A; apply Fre; unfold size in Q; lia). split; auto. intros (d & [<-|[]] & Q). cbn [newchunk ca ce] in Q. lia.
  - intros b [<-|[]]. exists 9. split; [lia|]. cbn. auto.
Qed.
