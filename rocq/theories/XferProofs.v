(** Lemmas for C68. *)
From Verif Require Import Base AsgModel AsgSpec AsgProps XferModel XferSpec.

(** * Memory *)
Lemma upd_nth : forall m i b j, (i < length m)%nat ->
  nth_error (upd m i b) j = if Nat.eqb j i then Some b else nth_error m j.
Proof.
  induction m as [|a m IH]; intros i b j H; [cbn in H; lia|].
  destruct i, j; cbn [upd nth_error Nat.eqb]; auto. apply IH. cbn in H. lia.
Qed.
Lemma upd_length : forall m i b, length (upd m i b) = length m.
Proof. induction m as [|a m IH]; intros [|i] b; cbn; auto. Qed.
Lemma inside_inv : forall m p n, inside m p n = true ->
  exists b, nth_error m (fst p) = Some b /\ 0 <= snd p /\ 0 <= n /\ snd p + n <= Z.of_nat (length b).
Proof.
  intros m p n H. unfold inside in H. destruct (nth_error m (fst p)) as [b|]; [|discriminate].
  exists b. b2p. auto.
Qed.
Lemma inside_sub : forall m p n k, inside m p n = true -> 0 <= k <= n -> inside m p k = true.
Proof.
  intros m p n k H K. unfold inside in *. destruct (nth_error m (fst p)) as [b|]; [|discriminate].
  b2p. apply andb_true_iff. split; [apply andb_true_iff; split|]; apply Z.leb_le; lia.
Qed.
Lemma nth_nth_error : forall (m : mem) i b, nth_error m i = Some b -> nth i m [] = b.
Proof. induction m as [|a m IH]; intros [|i] b H; cbn in *; try discriminate; [congruence|auto]. Qed.
Lemma nth_skipn : forall A (l : list A) n j, nth_error (skipn n l) j = nth_error l (n + j).
Proof.
  induction l as [|a l IH]; intros [|n] j; cbn [skipn plus nth_error]; auto. destruct j; reflexivity.
Qed.
Lemma nth_firstn : forall A (l : list A) n j, (j < n)%nat -> nth_error (firstn n l) j = nth_error l j.
Proof.
  induction l as [|a l IH]; intros [|n] j H; cbn [firstn nth_error]; try lia; auto.
  destruct j; cbn [nth_error]; auto. apply IH. lia.
Qed.
Lemma load_ok : forall m p n, inside m p n = true -> exists bs, load m p n = Ok bs.
Proof. intros m p n H. unfold load. rewrite H. eauto. Qed.
Lemma load_byte : forall m p n bs, load m p n = Ok bs ->
  Z.of_nat (length bs) = n /\
  forall j, 0 <= j < n -> nth_error bs (Z.to_nat j) = byte m (fst p) (snd p + j).
Proof.
  intros m p n bs H. unfold load in H. destruct (inside m p n) eqn:I; [|discriminate].
  apply inside_inv in I as (b & B & P & N & L). injection H as <-. rewrite (nth_nth_error _ _ _ B). split.
  - rewrite firstn_length, skipn_length. lia.
  - intros j J. rewrite nth_firstn by lia. rewrite nth_skipn. unfold byte.
    destruct (snd p + j <? 0) eqn:Q; b2p; [lia|]. rewrite B. f_equal. lia.
Qed.
Lemma byte_inside : forall m p n j, inside m p n = true -> 0 <= j < n -> exists v, byte m (fst p) (snd p + j) = Some v.
Proof.
  intros m p n j H J. apply inside_inv in H as (b & B & P & N & L). unfold byte.
  destruct (snd p + j <? 0) eqn:Q; b2p; [lia|]. rewrite B.
  destruct (nth_error b (Z.to_nat (snd p + j))) eqn:X; eauto. apply nth_error_None in X. lia.
Qed.
Lemma store_ok : forall m p bs, inside m p (Z.of_nat (length bs)) = true ->
  exists m', store m p bs = Ok m' /\ length m' = length m /\
  forall b i, byte m' b i =
    if Nat.eqb b (fst p) && (snd p <=? i) && (i <? snd p + Z.of_nat (length bs))
    then nth_error bs (Z.to_nat (i - snd p)) else byte m b i.
Proof.
  intros m p bs H. unfold store. rewrite H. eexists. split; [reflexivity|].
  split; [apply upd_length|]. intros b i.
  apply inside_inv in H as (bl & B & P & N & L). rewrite (nth_nth_error _ _ _ B).
  unfold byte. destruct (i <? 0) eqn:I; b2p.
  { destruct (Nat.eqb b (fst p) && (snd p <=? i) && (i <? snd p + Z.of_nat (length bs))) eqn:Q; auto. b2p. lia. }
  rewrite upd_nth by (apply nth_error_Some; congruence).
  destruct (Nat.eqb b (fst p)) eqn:Q; b2p; cbn [andb]; [|reflexivity]. subst b. rewrite B.
  destruct (snd p <=? i) eqn:Q1; b2p; cbn [andb].
  - destruct (i <? snd p + Z.of_nat (length bs)) eqn:Q2; b2p.
    + rewrite nth_error_app2 by (rewrite firstn_length; lia).
      rewrite firstn_length. rewrite nth_error_app1 by lia. f_equal. lia.
    + rewrite nth_error_app2 by (rewrite firstn_length; lia).
      rewrite firstn_length. rewrite nth_error_app2 by lia. rewrite nth_skipn. f_equal. lia.
  - apply Z.leb_gt in Q1. rewrite nth_error_app1 by (rewrite firstn_length; lia). apply nth_firstn. lia.
Qed.
Lemma transfer : forall m dst src n, inside m dst n = true -> inside m src n = true ->
  exists m', (let* bs := load m src n in store m dst bs) = Ok m' /\ length m' = length m /\ copied m m' dst src n.
Proof.
  intros m dst src n D S. destruct (load_ok _ _ _ S) as [bs L]. rewrite L. cbn [bind].
  apply load_byte in L as [LL LB].
  destruct (store_ok m dst bs) as (m' & ST & LM & SB); [rewrite LL; exact D|].
  exists m'. repeat split; auto. intros b i. rewrite SB, LL.
  destruct (Nat.eqb b (fst dst) && (snd dst <=? i) && (i <? snd dst + n)) eqn:Q; auto. b2p.
  rewrite LB by lia. f_equal.
Qed.
Lemma memcpy_ok : forall m dst src n, inside m dst n = true -> inside m src n = true -> overlap dst src n = false ->
  exists m', memcpy m dst src n = Ok m' /\ length m' = length m /\ copied m m' dst src n.
Proof.
  intros m dst src n D S O. unfold memcpy. rewrite O.
  assert (N : (n <? 0) = false). { apply inside_inv in D as (? & _ & _ & N & _). apply Z.ltb_ge. lia. }
  rewrite N. cbn [orb]. apply transfer; auto.
Qed.
Lemma cassign_ok : forall m dst src n, inside m dst n = true -> inside m src n = true -> overlap dst src n = false \/ dst = src ->
  exists m', cassign m dst src n = Ok m' /\ length m' = length m /\ copied m m' dst src n.
Proof.
  intros m dst src n D S O. unfold cassign.
  assert (Q : negb (snd dst =? snd src) && overlap dst src n = false).
  { destruct O as [O| ->]; [rewrite O; apply andb_false_r|rewrite Z.eqb_refl; reflexivity]. }
  rewrite Q. apply transfer; auto.
Qed.

(** * Lengths *)
Section WithTable.
Variable E : env.
Notation T t := (str E t).
Hypothesis TB : table E.
Hypothesis SZ : sizes E.

Lemma extent_nodyn : forall t lens ds e, extent E t lens ds e -> scomp (T t) <> DynArr -> lens = [].
Proof. intros t lens ds e H N. inversion H; subst; auto; congruence. Qed.
Lemma extent_size : forall t ds e, extent E t [] ds e -> scomp (T t) <> DynArr -> ssize (T t) = total E ds e.
Proof.
  intros t ds e H. remember [] as lens eqn:L. induction H; intros N; try congruence.
  - rewrite (z_array E SZ _ _ H H0). rewrite IHextent by auto. unfold total. cbn [fold_right]. lia.
  - unfold total. cbn [fold_right]. lia.
Qed.
Lemma extent_comp : forall t lens ds e dim, extent E t lens ds e -> (dim < length ds)%nat ->
  obj_len E lens t dim = Ok (nth dim ds 0).
Proof.
  intros t lens ds e dim H. revert dim. induction H; intros dim D; cbn [length] in D; [| |lia].
  - unfold obj_len. destruct dim as [|dim]; cbn [component bind].
    + unfold fcomp. rewrite H. reflexivity.
    + unfold baseof. rewrite H0. cbn [deref bind]. specialize (IHextent dim ltac:(lia)).
      unfold obj_len in IHextent. cbn [nth nth_error]. exact IHextent.
  - unfold obj_len. destruct dim as [|dim]; cbn [component bind].
    + unfold fcomp. rewrite H. reflexivity.
    + unfold baseof. rewrite H0. cbn [deref bind]. specialize (IHextent dim ltac:(lia)).
      unfold obj_len in IHextent. cbn [nth nth_error]. rewrite <- IHextent.
      destruct (component E b dim) as [a| | |]; cbn [bind]; auto.
      destruct (is_comp (fcomp E a) DynArr); auto. destruct dim; reflexivity.
Qed.
Lemma extent_base : forall t lens l ds e b, extent E t lens (l :: ds) e -> sbase (T t) = Some b ->
  exists lens', extent E b lens' ds e /\ (scomp (T t) <> DynArr -> lens' = [] /\ scomp (T b) <> DynArr).
Proof.
  intros t lens l ds e b H B. inversion H; subst.
  - exists lens0. replace b with b0 by congruence. split; auto. congruence.
  - exists []. replace b with b0 by congruence. auto.
Qed.
Lemma shaped_extent : forall d ds e, shaped E d ds e -> exists lens, extent E (dtyp d) lens ds e.
Proof.
  intros d ds e H. induction H; cbn [dtyp].
  - eauto.
  - destruct IHshaped as [lens X]. destruct (extent_base _ _ _ _ _ _ X H0) as (l' & X' & _). eauto.
  - exists []. constructor; auto.
Qed.
Lemma Len_ok : forall d ds e dim, shaped E d ds e -> (dim < length ds)%nat -> Len E d dim = Ok (nth dim ds 0).
Proof.
  intros d ds e dim H. revert dim. induction H; intros dim D; cbn [Len].
  - eapply extent_comp; eauto.
  - destruct (is_comp (fcomp E t) DynArr) eqn:C.
    + rewrite IHshaped by (cbn; lia). reflexivity.
    + destruct (shaped_extent _ _ _ H) as [lens X]. destruct (extent_base _ _ _ _ _ _ X H0) as (l' & X' & _).
      assert (N : scomp (T t) <> DynArr). { intros Q. unfold fcomp in C. rewrite Q in C. discriminate. }
      pose proof (extent_nodyn _ _ _ _ X' N). subst l'. eapply extent_comp; eauto.
  - cbn in D. lia.
Qed.

Lemma skipn_cons : forall A (l : list A) n x r, skipn n l = x :: r -> skipn (Datatypes.S n) l = r /\ (n < length l)%nat /\ forall d, nth n l d = x.
Proof.
  induction l as [|a l IH]; intros [|n] x r H; cbn [skipn] in H; try discriminate.
  - injection H as -> ->. cbn. repeat split; auto. lia.
  - destruct (IH _ _ _ H) as (A1 & A2 & A3). cbn [length nth]. repeat split; auto. lia.
Qed.
(** The product written for arrays of bytes. *)
Lemma byte_len_ok : forall fuel d all e dim t lens ds, shaped E d all e -> skipn dim all = ds ->
  extent E t lens ds e -> (length ds < fuel)%nat -> byte_len E fuel d t dim = Ok (total E ds e).
Proof.
  induction fuel as [|k IH]; intros d all e dim t lens ds SH SK X F; [lia|]. cbn [byte_len].
  destruct (is_comp (fcomp E t) DynArr) eqn:C.
  - b2p. unfold fcomp in C. inversion X; subst; try congruence.
    match goal with H : l :: _ = skipn dim all |- _ => symmetry in H; rename H into SK end.
    destruct (skipn_cons _ _ _ _ _ SK) as (S1 & S2 & S3).
    rewrite (Len_ok _ _ _ _ SH S2). cbn [bind]. rewrite S3. unfold baseof. rewrite H0. cbn [deref bind].
    rewrite (IH d all e (Datatypes.S dim) b lens0 ds0) by (auto; rewrite SK in F; cbn [length] in F; lia).
    cbn [bind]. unfold total. cbn [fold_right]. f_equal. lia.
  - assert (N : scomp (T t) <> DynArr). { intros Q. unfold fcomp in C. rewrite Q in C. discriminate. }
    pose proof (extent_nodyn _ _ _ _ X N). subst lens. rewrite (extent_size _ _ _ X N). reflexivity.
Qed.
Lemma dyncheck_cases : forall k ft at_ v, DynArrParCheck E (Datatypes.S k) ft at_ v = Ok [] -> scomp (T ft) = DynArr ->
  exists fb, sbase (T ft) = Some fb /\
  (v = true /\ fb = bytetyp E \/
   (scomp (T at_) = Array \/ scomp (T at_) = DynArr) /\
   exists ab, sbase (T at_) = Some ab /\
     (scomp (T fb) = DynArr /\ DynArrParCheck E k fb ab v = Ok [] \/
      scomp (T fb) <> DynArr /\ fb = ab \/
      scomp (T fb) <> DynArr /\ v = false /\ sform (T fb) = FPointer /\ sform (T ab) = FPointer)).
Proof.
  intros k ft at_ v H D. cbn [DynArrParCheck] in H.
  destruct (t_abase E TB ft ltac:(auto)) as [fb FB]. exists fb. split; auto.
  unfold baseof in H at 1. rewrite FB in H. cbn [deref bind] in H.
  destruct (v && Nat.eqb fb (bytetyp E)) eqn:VB; b2p; [left; auto|].
  right. destruct (is_comp (fcomp E at_) Array || is_comp (fcomp E at_) DynArr) eqn:C; [|discriminate].
  assert (CA : scomp (T at_) = Array \/ scomp (T at_) = DynArr)
    by (apply orb_true_iff in C as [C|C]; b2p; auto). split; auto.
  destruct (t_abase E TB at_ CA) as [ab AB]. exists ab. split; auto.
  unfold baseof in H at 1. rewrite AB in H. cbn [deref bind] in H.
  destruct (is_comp (fcomp E fb) DynArr) eqn:DD; b2p; [left; auto|].
  assert (N : scomp (T fb) <> DynArr). { intros Q. unfold fcomp in DD. rewrite Q in DD. discriminate. }
  destruct (Nat.eqb fb ab) eqn:QQ; b2p; [right; left; auto|]. right; right. split; auto.
  destruct v; cbn [negb andb] in H; [discriminate|].
  destruct (is_form (fform E fb) FPointer && is_form (fform E ab) FPointer) eqn:P; [|discriminate]. b2p. auto.
Qed.
Lemma len_args_ok : forall k fuel d all e dim ft at_ lens ds v,
  shaped E d all e -> skipn dim all = ds -> extent E at_ lens ds e ->
  scomp (T ft) = DynArr -> DynArrParCheck E k ft at_ v = Ok [] -> sform (T (bytetyp E)) = FByte ->
  (k + length ds < fuel)%nat ->
  exists ls, len_args E fuel d ft at_ dim = Ok ls /\ lengths E ft ds e ls.
Proof.
  induction k as [|k IH]; intros fuel d all e dim ft at_ lens ds v SH SK X D H BT F; [discriminate|].
  destruct fuel as [|fuel]; [lia|]. cbn [len_args].
  unfold fcomp at 1. rewrite D. change (is_comp DynArr DynArr) with true. cbv iota.
  destruct (dyncheck_cases _ _ _ _ H D) as (fb & FB & CASE). unfold baseof at 1. rewrite FB. cbn [deref bind].
  destruct (is_form (fform E fb) FByte) eqn:BY; b2p.
  - erewrite byte_len_ok by (eauto; lia). cbn [bind]. eexists. split; [reflexivity|]. eapply ln_byte; eauto.
  - assert (NB : sform (T fb) <> FByte). { intros Q. unfold fform in BY. rewrite Q in BY. discriminate. }
    destruct CASE as [[_ ->]|(CA & ab & AB & CASE)]; [congruence|].
    assert (exists l ds', ds = l :: ds') as (l & ds' & ->).
    { inversion X; subst; eauto. destruct CA; congruence. }
    destruct (skipn_cons _ _ _ _ _ SK) as (S1 & S2 & S3).
    rewrite (Len_ok _ _ _ _ SH S2). cbn [bind]. rewrite S3. unfold baseof at 1. rewrite AB. cbn [deref bind].
    destruct (extent_base _ _ _ _ _ _ X AB) as (lens' & X' & _).
    assert (REC : exists ls, len_args E fuel d fb ab (Datatypes.S dim) = Ok ls /\ lengths E fb ds' e ls).
    { destruct CASE as [[DF HF]|CASE].
      - eapply IH; eauto. cbn [length] in F. lia.
      - assert (ND : scomp (T fb) <> DynArr) by (destruct CASE as [[? _]|[? _]]; auto).
        exists []. split; [|apply ln_end; auto]. destruct fuel; [cbn [length] in F; lia|]. cbn [len_args].
        destruct (is_comp (fcomp E fb) DynArr) eqn:Q; auto. b2p. unfold fcomp in Q. congruence. }
    destruct REC as (ls & -> & LS). cbn [bind]. eexists. split; [reflexivity|]. eapply ln_open; eauto.
Qed.

(** The copy of an open array parameter takes exactly the space of the actual. *)
Lemma copy_ok : forall k fuel ft at_ lens ds e ls,
  extent E at_ lens ds e -> scomp (T ft) = DynArr -> DynArrParCheck E k ft at_ false = Ok [] ->
  lengths E ft ds e ls -> (k < fuel)%nat ->
  exists el n, innermost E fuel ft = Ok (el, n) /\ n = length ls /\ prod ls * ssize (T el) = total E ds e.
Proof.
  induction k as [|k IH]; intros fuel ft at_ lens ds e ls X D H L F; [discriminate|].
  destruct fuel as [|fuel]; [lia|]. cbn [innermost].
  unfold fcomp at 1. rewrite D. change (is_comp DynArr DynArr) with true. cbv iota.
  destruct (dyncheck_cases _ _ _ _ H D) as (fb & FB & [[? _]|(CA & ab & AB & CASE)]); [discriminate|].
  unfold baseof at 1. rewrite FB. cbn [deref bind].
  assert (exists l ds', ds = l :: ds') as (l & ds' & ->).
  { inversion X; subst; eauto. destruct CA; congruence. }
  destruct (extent_base _ _ _ _ _ _ X AB) as (lens' & X' & NB).
  assert (EL : scomp (T fb) <> DynArr -> innermost E fuel fb = Ok (fb, O)).
  { intros ND. destruct fuel; [lia|]. cbn [innermost]. destruct (is_comp (fcomp E fb) DynArr) eqn:Q; auto. b2p. unfold fcomp in Q. congruence. }
  inversion L; subst; try congruence.
  - (* bytes *) replace b with fb in * by congruence.
    assert (ND : scomp (T fb) <> DynArr). { intros Q. pose proof (form_comp E TB fb ltac:(congruence)). congruence. }
    rewrite (EL ND). cbn [bind]. exists fb, 1%nat. split; auto. split; auto.
    rewrite (z_byte E SZ fb) by auto. cbn [prod fold_right]. lia.
  - replace b with fb in * by congruence. destruct CASE as [[DF HF]|CASE].
    + destruct (IH fuel fb ab lens' ds' e ls0 X' DF HF ltac:(auto) ltac:(lia)) as (el & n & -> & -> & EQ).
      cbn [bind]. exists el, (Datatypes.S (length ls0)). split; auto. split; auto.
      cbn [prod fold_right]. unfold prod in EQ. unfold total in *. cbn [fold_right]. rewrite <- Z.mul_assoc, EQ. lia.
    + assert (ND : scomp (T fb) <> DynArr) by (destruct CASE as [[? _]|[? _]]; auto).
      rewrite (EL ND). cbn [bind].
      match goal with H : lengths E fb ds' e ls0 |- _ => inversion H; subst; try congruence end.
      exists fb, 1%nat. split; auto. split; auto. cbn [prod fold_right]. unfold total. cbn [fold_right].
      assert (SE : ssize (T fb) = total E ds' e).
      { destruct CASE as [[_ ->]|(_ & _ & P1 & P2)].
        - pose proof (extent_nodyn _ _ _ _ X' ND). subst lens'. apply extent_size; auto.
        - inversion X'; subst.
          + pose proof (form_comp E TB ab ltac:(congruence)). congruence.
          + pose proof (form_comp E TB ab ltac:(congruence)). congruence.
          + rewrite (z_ptr E SZ fb e) by auto. unfold total. cbn [fold_right]. lia. }
      rewrite SE. unfold total. lia.
Qed.
End WithTable.
