From Verif Require Import Base ArrZ HeapModel HeapSpec.

Lemma upd_same : forall m a v, upd m a v a = Some v.
Proof. intros. unfold upd. rewrite Z.eqb_refl. reflexivity. Qed.
Lemma upd_other : forall m a v b, b <> a -> upd m a v b = m b.
Proof. intros. unfold upd. replace (b =? a) with false by lia. reflexivity. Qed.
Lemma get_ok : forall m a v, m a = Some v -> get m a = Ok v.
Proof. intros m a v H. unfold get. rewrite H. reflexivity. Qed.
Lemma put_ok : forall m a v w, m a = Some w -> put m a v = Ok (upd m a v).
Proof. intros m a v w H. unfold put. rewrite H. reflexivity. Qed.
Lemma odd_S : forall z, Z.odd (z + 1) = negb (Z.odd z).
Proof. intro z. change (z + 1) with (Z.succ z). rewrite Z.odd_succ, <- Z.negb_odd. reflexivity. Qed.
Lemma isin_true : forall x M, isin x M = true <-> In x M.
Proof. intros. unfold isin. destruct (in_dec Z.eq_dec x M); split; auto; discriminate. Qed.
Lemma isin_false : forall x M, isin x M = false <-> ~ In x M.
Proof. intros. unfold isin. destruct (in_dec Z.eq_dec x M); split; auto; try discriminate. intro H. contradiction. Qed.

(** What the loop does on leaving an object: stop, or restore the parent and go on with its next field. *)
Definition leave (fuel : nat) (m : mem) (p q : Z) : res mem :=
  if p =? 0 then Ok m
  else
    let* tag := get m (p - 8) in let tag := tag - 1 in
    let* offset := get m tag in let fld := p + offset in
    let* p' := get m fld in
    let* m := put m fld q in
    mark_loop fuel m p' p (tag + 8).

Section MARK.
Variable g : graph.
Hypothesis AP : apart g.

(** While object q is being scanned: [M] are the marked objects, of which only q's fields are known to be in place. *)
Record during (m : mem) (q : Z) (M : list Z) : Prop := {
  du_nd : NoDup M;
  du_in : incl M (objs g);
  du_q : In q M;
  du_marked : forall x, In x M -> exists v, m (x - 8) = Some v /\ Z.odd v = true;
  du_white : forall x, In x (objs g) -> ~ In x M -> m (x - 8) = Some (desc g x);
  du_even : forall x, In x (objs g) -> x <> 0 /\ Z.odd (desc g x) = false;
  du_off : forall x l1 o c l2, In x (objs g) -> flds g x = l1 ++ (o, c) :: l2 -> m (desc g x + 8 + 8 * zlen l1) = Some o /\ 0 <= o;
  du_end : forall x, In x (objs g) -> m (desc g x + 8 + 8 * zlen (flds g x)) = Some (- 8 * (zlen (flds g x) + 1));
  du_fld : forall x o c, In x (objs g) -> x = q \/ ~ In x M -> In (o, c) (flds g x) -> m (x + o) = Some c /\ (c = 0 \/ In c (objs g))
}.

Lemma dword_off : forall x l1 o c l2, flds g x = l1 ++ (o, c) :: l2 -> dword g x (desc g x + 8 + 8 * zlen l1).
Proof.
  intros x l1 o c l2 H. exists (zlen l1). split; [|reflexivity]. rewrite H, zlen_app, zlen_cons. pose proof (zlen_nonneg _ l1). pose proof (zlen_nonneg _ l2). lia.
Qed.
Lemma dword_end : forall x, dword g x (desc g x + 8 + 8 * zlen (flds g x)).
Proof. intro x. exists (zlen (flds g x)). split; [|reflexivity]. pose proof (zlen_nonneg _ (flds g x)). lia. Qed.

(** The effect of a completed visit. *)
Record visited (m m' : mem) (q : Z) (M M' : list Z) : Prop := {
  vi_nd : NoDup M';
  vi_incl : incl M M';
  vi_in : incl M' (objs g);
  vi_q : m' (q - 8) = Some (desc g q + 1);
  vi_new : forall x, In x M' -> ~ In x M -> m' (x - 8) = Some (desc g x + 1) /\ reach g q x /\ (forall o c, In (o, c) (flds g x) -> c <> 0 -> In c M');
  vi_frame : forall a, (forall x, In x M' -> ~ In x M \/ x = q -> a <> x - 8) -> m' a = m a
}.

Lemma field_split : forall x l1 o c l2 o' c', In x (objs g) -> flds g x = l1 ++ (o, c) :: l2 -> In (o', c') (l1 ++ l2) -> o <> o'.
Proof.
  intros x l1 o c l2 o' c' Hx E H N. pose proof (ap_nd g AP x Hx) as D. rewrite E, map_app in D. cbn [map fst] in D. apply NoDup_remove_2 in D. apply D. rewrite <- map_app. subst o'.
  apply in_map_iff. exists (o, c'). auto.
Qed.

Lemma during_step : forall m q M l1 o c l2, during m q M -> flds g q = l1 ++ (o, c) :: l2 -> c = 0 \/ In c M ->
  forall p, m (q + o) = Some c ->
  forall f, mark_loop (S f) m p q (desc g q + 8 + 8 * zlen l1) = mark_loop f m p q (desc g q + 8 + 8 * zlen (l1 ++ [(o, c)])).
Proof.
  intros m q M l1 o c l2 D E C p F f. pose proof (du_in _ _ _ D q (du_q _ _ _ D)) as Hq. destruct (du_off _ _ _ D q l1 o c l2 Hq E) as [A B].
  cbn [mark_loop]. rewrite (get_ok _ _ _ A), bind_ok. replace (o <? 0) with false by lia. rewrite (get_ok _ _ _ F), bind_ok.
  assert (T : desc g q + 8 + 8 * zlen l1 + 8 = desc g q + 8 + 8 * zlen (l1 ++ [(o, c)])) by (rewrite zlen_app, zlen_cons, zlen_nil; lia).
  destruct (c =? 0) eqn:Ec; [rewrite T; reflexivity|]. destruct C as [C|C]; [lia|].
  destruct (du_marked _ _ _ D c C) as (v & V & O). rewrite (get_ok _ _ _ V), bind_ok, O, T. reflexivity.
Qed.

Lemma visit : forall n M, (length (objs g) - length M <= n)%nat -> forall todo dn q p m, flds g q = dn ++ todo -> during m q M ->
  exists steps m' M', (forall fuel, mark_loop (steps + fuel) m p q (desc g q + 8 + 8 * zlen dn) = leave fuel m' p q) /\
    visited m m' q M M' /\ forall o c, In (o, c) todo -> c <> 0 -> In c M'.
Proof.
  induction n as [n IHn] using lt_wf_ind. intros M0 L0 todo. revert M0 L0. induction todo as [|[o c] todo IHt]; intros M L dn q p m E D;
    pose proof (du_in _ _ _ D q (du_q _ _ _ D)) as Hq.
  - rewrite app_nil_r in E. subst dn. exists 1%nat, (upd m (q - 8) (desc g q + 1)), M. split; [|split].
    + intro fuel. cbn [Nat.add mark_loop]. rewrite (get_ok _ _ _ (du_end _ _ _ D q Hq)), bind_ok. pose proof (zlen_nonneg _ (flds g q)).
      replace (-8 * (zlen (flds g q) + 1) <? 0) with true by lia. destruct (du_marked _ _ _ D q (du_q _ _ _ D)) as (v & V & _).
      replace (desc g q + 8 + 8 * zlen (flds g q) + -8 * (zlen (flds g q) + 1) + 1) with (desc g q + 1) by lia.
      rewrite (put_ok _ _ _ _ V), bind_ok. reflexivity.
    + constructor.
      * apply (du_nd _ _ _ D).
      * apply incl_refl.
      * apply (du_in _ _ _ D).
      * apply upd_same.
      * intros x H1 H2. contradiction.
      * intros a H. apply upd_other. apply H; auto. apply (du_q _ _ _ D).
    + intros o c [].
  - assert (Ho : In (o, c) (flds g q)) by (rewrite E; apply in_or_app; right; left; reflexivity).
    destruct (du_fld _ _ _ D q o c Hq (or_introl eq_refl) Ho) as [F C].
    assert (E2 : flds g q = (dn ++ [(o, c)]) ++ todo) by (rewrite <- app_assoc; exact E).
    destruct (Z.eq_dec c 0) as [C0|C0]; [|destruct (in_dec Z.eq_dec c M) as [CM|CM]].
    + destruct (IHt M L (dn ++ [(o, c)]) q p m E2 D) as (st & m' & M' & A & B & G). exists (S st), m', M'. split; [|split; auto].
      * intro fuel. cbn [Nat.add]. rewrite (during_step m q M dn o c todo D E (or_introl C0) p F). apply A.
      * intros o' c' [X|X] N; [inversion X; congruence|eauto].
    + destruct (IHt M L (dn ++ [(o, c)]) q p m E2 D) as (st & m' & M' & A & B & G). exists (S st), m', M'. split; [|split; auto].
      * intro fuel. cbn [Nat.add]. rewrite (during_step m q M dn o c todo D E (or_intror CM) p F). apply A.
      * intros o' c' [X|X] N; [inversion X; subst; apply (vi_incl _ _ _ _ _ B); auto|eauto].
    + (* a new object *)
      destruct C as [C|Hc]; [congruence|]. assert (NQ : c <> q) by (intros ->; apply CM, (du_q _ _ _ D)).
      pose proof (du_white _ _ _ D c Hc CM) as W. destruct (du_marked _ _ _ D q (du_q _ _ _ D)) as (vq & Vq & _).
      destruct (du_even _ _ _ D c Hc) as [_ Ev]. destruct (du_off _ _ _ D q dn o c todo Hq E) as [OFF OFF0].
      set (tag := desc g q + 8 + 8 * zlen dn) in *. set (m1 := upd m (c - 8) (desc g c + 1)). set (m2 := upd m1 (q - 8) (tag + 1)). set (m3 := upd m2 (q + o) p).
      pose proof (dword_off q dn o c todo E) as Dq. fold tag in Dq.
      assert (HFq : q - 8 <> q + o) by (apply (ap_hf g AP q q o c); auto).
      assert (HFc : c - 8 <> q + o) by (apply (ap_hf g AP c q o c); auto).
      assert (HE : Z.odd (tag + 1) = true).
      { unfold tag. rewrite odd_S. destruct (du_even _ _ _ D q Hq) as [_ Eq]. replace (desc g q + 8 + 8 * zlen dn) with (desc g q + 2 * (4 + 4 * zlen dn)) by lia. rewrite Z.odd_add_mul_2, Eq. reflexivity. }
      assert (NI : ~ In c M) by auto.
      assert (LM : (length M < length (objs g))%nat).
      { pose proof (NoDup_incl_length (NoDup_cons c NI (du_nd _ _ _ D)) (l' := objs g)) as Q. cbn [length] in Q. apply Q. intros x [<-|X]; auto. apply (du_in _ _ _ D); auto. }
      assert (D3 : during m3 c (c :: M)).
      { constructor.
        - constructor; auto. apply (du_nd _ _ _ D).
        - intros x [<-|X]; auto. apply (du_in _ _ _ D); auto.
        - left; auto.
        - intros x X. assert (Hx : In x (objs g)) by (destruct X as [<-|X]; auto; apply (du_in _ _ _ D); auto).
          unfold m3. rewrite upd_other by (apply (ap_hf g AP x q o c); auto). unfold m2. destruct (Z.eq_dec x q) as [->|XQ].
          + rewrite upd_same. eauto.
          + rewrite upd_other by lia. unfold m1. destruct (Z.eq_dec x c) as [->|XC].
            * rewrite upd_same. exists (desc g c + 1). split; auto. rewrite odd_S, Ev. reflexivity.
            * rewrite upd_other by lia. apply (du_marked _ _ _ D). destruct X; congruence.
        - intros x Hx X. cbn [In] in X. unfold m3. rewrite upd_other by (apply (ap_hf g AP x q o c); auto). unfold m2. rewrite upd_other by (intro; apply X; right; replace x with q by lia; apply (du_q _ _ _ D)).
          unfold m1. rewrite upd_other by (intro; apply X; left; lia). apply (du_white _ _ _ D); auto.
        - apply (du_even _ _ _ D).
        - intros x l1 o' c' l2 Hx Ex. destruct (du_off _ _ _ D x l1 o' c' l2 Hx Ex) as [A B]. split; auto. pose proof (dword_off x l1 o' c' l2 Ex) as Dx. set (w := desc g x + 8 + 8 * zlen l1) in *.
          unfold m3. rewrite upd_other by (intro Q; apply (ap_fd g AP q x o c Hq Hx Ho); rewrite <- Q; auto).
          unfold m2. rewrite upd_other by (intro Q; apply (ap_hd g AP q x Hq Hx); rewrite <- Q; auto).
          unfold m1. rewrite upd_other by (intro Q; apply (ap_hd g AP c x Hc Hx); rewrite <- Q; auto). auto.
        - intros x Hx. pose proof (dword_end x) as Dx. pose proof (du_end _ _ _ D x Hx) as A. set (w := desc g x + 8 + 8 * zlen (flds g x)) in *.
          unfold m3. rewrite upd_other by (intro Q; apply (ap_fd g AP q x o c Hq Hx Ho); rewrite <- Q; auto).
          unfold m2. rewrite upd_other by (intro Q; apply (ap_hd g AP q x Hq Hx); rewrite <- Q; auto).
          unfold m1. rewrite upd_other by (intro Q; apply (ap_hd g AP c x Hc Hx); rewrite <- Q; auto). auto.
        - intros x o' c' Hx X In'. assert (XM : ~ In x M) by (destruct X as [->|X]; auto; intro; apply X; right; auto).
          assert (XQ : x <> q) by (intros ->; apply XM, (du_q _ _ _ D)). destruct (du_fld _ _ _ D x o' c' Hx (or_intror XM) In') as [A B]. split; auto.
          unfold m3. rewrite upd_other by (intro Q; apply XQ; apply (ap_ff g AP x q o' c' o c); auto).
          unfold m2. rewrite upd_other by (intro Q; symmetry in Q; revert Q; apply (ap_hf g AP q x o' c'); auto).
          unfold m1. rewrite upd_other by (intro Q; symmetry in Q; revert Q; apply (ap_hf g AP c x o' c'); auto). auto. }
      destruct (IHn (length (objs g) - length (c :: M))%nat ltac:(cbn [length]; lia) (c :: M) ltac:(lia) (flds g c) [] c q m3 eq_refl D3) as (st1 & m4 & M1 & A1 & B1 & G1).
      assert (FR : forall a, (forall x, In x M1 -> ~ In x M -> a <> x - 8) -> m4 a = m3 a).
      { intros a H. apply (vi_frame _ _ _ _ _ B1). intros x X Y. apply H; auto. destruct Y as [Y| ->]; auto. intro Z. apply Y. right; auto. }
      assert (QM : In q M) by apply (du_q _ _ _ D).
      assert (H4q : m4 (q - 8) = Some (tag + 1)).
      { rewrite FR by (intros x X Y Q; apply Y; replace x with q by lia; auto). unfold m3. rewrite upd_other by auto. unfold m2. apply upd_same. }
      assert (H4o : m4 tag = Some o).
      { rewrite FR. - unfold m3. rewrite upd_other by (intro Q; apply (ap_fd g AP q q o c Hq Hq Ho); rewrite <- Q; auto).
          unfold m2. rewrite upd_other by (intro Q; apply (ap_hd g AP q q Hq Hq); rewrite <- Q; auto).
          unfold m1. rewrite upd_other by (intro Q; apply (ap_hd g AP c q Hc Hq); rewrite <- Q; auto). auto.
        - intros x X Y Q. apply (ap_hd g AP x q (vi_in _ _ _ _ _ B1 x X) Hq). rewrite <- Q. auto. }
      assert (H4f : m4 (q + o) = Some p).
      { rewrite FR. - unfold m3. apply upd_same. - intros x X Y Q. symmetry in Q. revert Q. apply (ap_hf g AP x q o c); auto. apply (vi_in _ _ _ _ _ B1 x X). }
      set (m5 := upd m4 (q + o) c).
      assert (M1M : incl M M1) by (intros x X; apply (vi_incl _ _ _ _ _ B1); right; auto).
      assert (CM1 : In c M1) by (apply (vi_incl _ _ _ _ _ B1); left; auto).
      assert (FR5 : forall a, (forall x, In x M1 -> ~ In x M \/ x = q -> a <> x - 8) -> m5 a = m a).
      { intros a H. unfold m5. destruct (Z.eq_dec a (q + o)) as [->|N1]; [rewrite upd_same; auto|]. rewrite upd_other by auto. rewrite FR by auto.
        unfold m3. rewrite upd_other by auto. unfold m2. rewrite upd_other by (apply H; auto). unfold m1. apply upd_other. apply H; auto. }
      assert (NEW5 : forall x, In x M1 -> ~ In x M -> m5 (x - 8) = Some (desc g x + 1)).
      { intros x X Y. unfold m5. rewrite upd_other by (apply (ap_hf g AP x q o c); auto; apply (vi_in _ _ _ _ _ B1 x X)).
        destruct (Z.eq_dec x c) as [->|XC]; [apply (vi_q _ _ _ _ _ B1)|]. apply (vi_new _ _ _ _ _ B1 x X). intros [Q|Q]; congruence. }
      assert (D5 : during m5 q M1).
      { constructor.
        - apply (vi_nd _ _ _ _ _ B1).
        - apply (vi_in _ _ _ _ _ B1).
        - auto.
        - intros x X. destruct (in_dec Z.eq_dec x M) as [XM|XM].
          + destruct (Z.eq_dec x q) as [->|XQ].
            * exists (tag + 1). split; auto. unfold m5. rewrite upd_other by auto. auto.
            * rewrite FR5. { apply (du_marked _ _ _ D); auto. } intros y Y1 Y2 Q. destruct Y2 as [Y2| ->]; [apply Y2; replace y with x by lia; auto|lia].
          + rewrite (NEW5 x X XM). exists (desc g x + 1). split; auto. rewrite odd_S. destruct (du_even _ _ _ D x (vi_in _ _ _ _ _ B1 x X)) as [_ ->]. reflexivity.
        - intros x Hx X. rewrite FR5. { apply (du_white _ _ _ D); auto. } intros y Y1 Y2 Q. apply X. replace x with y by lia. auto.
        - apply (du_even _ _ _ D).
        - intros x l1 o' c' l2 Hx Ex. destruct (du_off _ _ _ D x l1 o' c' l2 Hx Ex) as [A B]. split; auto. rewrite FR5; auto.
          intros y Y1 Y2 Q. apply (ap_hd g AP y x (vi_in _ _ _ _ _ B1 y Y1) Hx). rewrite <- Q. apply (dword_off x l1 o' c' l2 Ex).
        - intros x Hx. rewrite FR5. { apply (du_end _ _ _ D x Hx). } intros y Y1 Y2 Q. apply (ap_hd g AP y x (vi_in _ _ _ _ _ B1 y Y1) Hx). rewrite <- Q. apply dword_end.
        - intros x o' c' Hx X In'. assert (X0 : x = q \/ ~ In x M) by (destruct X as [X|X]; auto). destruct (du_fld _ _ _ D x o' c' Hx X0 In') as [A B]. split; auto. rewrite FR5; auto.
          intros y Y1 Y2 Q. symmetry in Q. revert Q. apply (ap_hf g AP y x o' c'); auto. apply (vi_in _ _ _ _ _ B1 y Y1). }
      assert (L1 : (length M <= length M1)%nat) by (apply NoDup_incl_length; auto; apply (du_nd _ _ _ D)).
      destruct (IHt M1 ltac:(lia) (dn ++ [(o, c)]) q p m5 E2 D5) as (st2 & m' & M' & A2 & B2 & G2).
      exists (S (st1 + st2)), m', M'. split; [|split].
      * intro fuel. cbn [Nat.add mark_loop]. fold tag. rewrite (get_ok _ _ _ OFF), bind_ok. replace (o <? 0) with false by lia. rewrite (get_ok _ _ _ F), bind_ok.
        replace (c =? 0) with false by lia. rewrite (get_ok _ _ _ W), bind_ok, Ev. rewrite (put_ok _ _ _ _ W), bind_ok. fold m1.
        assert (Q1 : m1 (q - 8) = Some vq) by (unfold m1; rewrite upd_other by lia; auto). rewrite (put_ok _ _ _ _ Q1), bind_ok. fold m2.
        assert (Q2 : m2 (q + o) = Some c) by (unfold m2; rewrite upd_other by auto; unfold m1; rewrite upd_other by auto; auto). rewrite (put_ok _ _ _ _ Q2), bind_ok. fold m3.
        specialize (A1 (st2 + fuel)%nat). rewrite zlen_nil in A1. replace (desc g c + 8 + 8 * 0) with (desc g c + 8) in A1 by lia. rewrite Nat.add_assoc in A1. rewrite A1.
        unfold leave. destruct (du_even _ _ _ D q Hq) as [Q0 _]. replace (q =? 0) with false by lia. rewrite (get_ok _ _ _ H4q), bind_ok. replace (tag + 1 - 1) with tag by lia.
        rewrite (get_ok _ _ _ H4o), bind_ok. rewrite (get_ok _ _ _ H4f), bind_ok. rewrite (put_ok _ _ _ _ H4f), bind_ok. fold m5.
        specialize (A2 fuel). replace (tag + 8) with (desc g q + 8 + 8 * zlen (dn ++ [(o, c)])) by (unfold tag; rewrite zlen_app, zlen_cons, zlen_nil; lia). exact A2.
      * constructor.
        -- apply (vi_nd _ _ _ _ _ B2).
        -- intros x X. apply (vi_incl _ _ _ _ _ B2). auto.
        -- apply (vi_in _ _ _ _ _ B2).
        -- apply (vi_q _ _ _ _ _ B2).
        -- intros x X Y. destruct (in_dec Z.eq_dec x M1) as [X1|X1].
           ++ split; [|split].
              ** rewrite (vi_frame _ _ _ _ _ B2). { apply NEW5; auto. } intros y Y1 Y2 Q. destruct Y2 as [Y2| ->]; [apply Y2; replace y with x by lia; auto|]. apply Y. replace x with q by lia. auto.
              ** assert (Rq : reach g q c) by (apply (reach_step g q q o c); auto; constructor; apply (du_even _ _ _ D q Hq)).
                 destruct (Z.eq_dec x c) as [->|XC]; auto. assert (XN : ~ In x (c :: M)) by (intros [Q|Q]; congruence). destruct (vi_new _ _ _ _ _ B1 x X1 XN) as (_ & R & _).
                 clear - R Rq. induction R; auto. econstructor; eauto.
              ** intros o' c' I' N'. apply (vi_incl _ _ _ _ _ B2). destruct (Z.eq_dec x c) as [->|XC]; [eapply G1; eauto|].
                 assert (XN : ~ In x (c :: M)) by (intros [Q|Q]; congruence). destruct (vi_new _ _ _ _ _ B1 x X1 XN) as (_ & _ & R). eauto.
           ++ apply (vi_new _ _ _ _ _ B2); auto.
        -- intros a H. rewrite (vi_frame _ _ _ _ _ B2). ++ apply FR5. intros x X Y. apply H; auto. apply (vi_incl _ _ _ _ _ B2); auto.
           ++ intros x X Y. apply H; auto. destruct Y as [Y|Y]; auto.
      * intros o' c' [X|X] N; [|eauto]. inversion X; subst. apply (vi_incl _ _ _ _ _ B2); auto.
Qed.
End MARK.

(** The marking procedure as a whole. *)
Lemma Mark_spec : forall g m M q, apart g -> shows m g M -> NoDup M -> incl M (objs g) -> mclosed g M -> q = 0 \/ In q (objs g) ->
  exists N m' M', (forall fuel, (N <= fuel)%nat -> Mark fuel m q = Ok m') /\ shows m' g M' /\ NoDup M' /\ incl M' (objs g) /\ mclosed g M' /\
    (forall x, In x M' <-> In x M \/ reach g q x) /\ (forall a, (forall x, In x (objs g) -> a <> x - 8) -> m' a = m a).
Proof.
  intros g m M q AP SH ND IN CL Q.
  assert (R0 : forall x, reach g 0 x -> False).
  { intros x H. induction H; auto. }
  assert (RM : forall r x, In r M -> reach g r x -> In x M).
  { intros r x H R. induction R; auto. eapply CL; eauto. }
  destruct (Z.eq_dec q 0) as [->|Q0].
  { exists 0%nat, m, M. split; [intros; unfold Mark; reflexivity|]. conjs; auto. intro x. split; auto. intros [H|H]; auto. destruct (R0 x H). }
  destruct Q as [Q|Hq]; [congruence|]. pose proof (sh_head _ _ _ SH q Hq) as H. destruct (in_dec Z.eq_dec q M) as [QM|QM].
  { exists 0%nat, m, M. split.
    - intros fuel _. unfold Mark. replace (q =? 0) with false by lia. rewrite (get_ok _ _ _ H), bind_ok. replace (isin q M) with true by (symmetry; apply isin_true; auto).
      rewrite odd_S. destruct (sh_even _ _ _ SH q Hq) as [_ ->]. reflexivity.
    - conjs; auto. intro x. split; auto. intros [X|X]; auto. eapply RM; eauto. }
  replace (isin q M) with false in H by (symmetry; apply isin_false; auto). rewrite Z.add_0_r in H.
  set (m1 := upd m (q - 8) (desc g q + 1)).
  assert (Hm1 : forall a, a <> q - 8 -> m1 a = m a) by (intros; apply upd_other; auto).
  assert (D : during g m1 q (q :: M)).
  { constructor.
    - constructor; auto.
    - intros x [<-|X]; auto.
    - left; auto.
    - intros x X. destruct (Z.eq_dec x q) as [->|N].
      + exists (desc g q + 1). split; [apply upd_same|]. rewrite odd_S. destruct (sh_even _ _ _ SH q Hq) as [_ ->]. reflexivity.
      + destruct X as [X|X]; [congruence|]. rewrite Hm1 by lia. rewrite (sh_head _ _ _ SH x (IN x X)). replace (isin x M) with true by (symmetry; apply isin_true; auto).
        exists (desc g x + 1). split; auto. rewrite odd_S. destruct (sh_even _ _ _ SH x (IN x X)) as [_ ->]. reflexivity.
    - intros x Hx X. cbn [In] in X. rewrite Hm1 by (intro; apply X; left; lia). rewrite (sh_head _ _ _ SH x Hx). replace (isin x M) with false by (symmetry; apply isin_false; auto). f_equal. lia.
    - apply (sh_even _ _ _ SH).
    - intros x l1 o c l2 Hx E. destruct (sh_off _ _ _ SH x l1 o c l2 Hx E) as [A B]. split; auto. rewrite Hm1; auto. intro Z. apply (ap_hd g AP q x Hq Hx). rewrite <- Z. eapply dword_off; eauto.
    - intros x Hx. rewrite Hm1. { apply (sh_end _ _ _ SH x Hx). } intro Z. apply (ap_hd g AP q x Hq Hx). rewrite <- Z. apply dword_end.
    - intros x o c Hx _ I. destruct (sh_fld _ _ _ SH x o c Hx I) as [A B]. split; auto. rewrite Hm1; auto. intro Z. symmetry in Z. revert Z. apply (ap_hf g AP q x o c); auto. }
  destruct (visit g AP (length (objs g)) (q :: M) ltac:(lia) (flds g q) [] q 0 m1 eq_refl D) as (st & m' & M' & A & B & G).
  assert (NEWIN : forall x, In x M' -> ~ In x M -> m' (x - 8) = Some (desc g x + 1)).
  { intros x X Y. destruct (Z.eq_dec x q) as [->|N]; [apply (vi_q _ _ _ _ _ _ B)|]. apply (vi_new _ _ _ _ _ _ B x X). intros [Z|Z]; congruence. }
  assert (FR : forall a, (forall x, In x M' -> ~ In x M -> a <> x - 8) -> m' a = m a).
  { intros a Z. assert (QM' : In q M') by (apply (vi_incl _ _ _ _ _ _ B); left; auto). rewrite (vi_frame _ _ _ _ _ _ B). - apply Hm1. apply Z; auto.
    - intros x X Y. apply Z; auto. destruct Y as [Y| ->]; auto. intro W. apply Y. right; auto. }
  assert (MM : incl M M') by (intros x X; apply (vi_incl _ _ _ _ _ _ B); right; auto).
  assert (FRH : forall x a, In x (objs g) -> (forall y, In y (objs g) -> a <> y - 8) -> m' a = m a).
  { intros x a _ Z. apply FR. intros y Y _. apply Z. apply (vi_in _ _ _ _ _ _ B); auto. }
  assert (CLX : mclosed g M').
  { intros x o c X I N. destruct (in_dec Z.eq_dec x M) as [XM|XM]; [apply MM; eapply CL; eauto|]. destruct (Z.eq_dec x q) as [->|XQ]; [eapply G; eauto|].
    destruct (vi_new _ _ _ _ _ _ B x X) as (_ & _ & R); [intros [Z|Z]; congruence|eauto]. }
  exists (S st), m', M'. split; [|split; [|split; [|split; [|split; [|split]]]]].
  - intros fuel L. unfold Mark. replace (q =? 0) with false by lia. rewrite (get_ok _ _ _ H), bind_ok. destruct (sh_even _ _ _ SH q Hq) as [_ Ev]. rewrite Ev.
    rewrite (put_ok _ _ _ _ H), bind_ok. fold m1. replace fuel with (st + (fuel - st))%nat by lia. specialize (A (fuel - st)%nat). rewrite zlen_nil in A.
    replace (desc g q + 8 + 8 * 0) with (desc g q + 8) in A by lia. rewrite A. reflexivity.
  - constructor.
    + intros x Hx. destruct (in_dec Z.eq_dec x M') as [X|X].
      * replace (isin x M') with true by (symmetry; apply isin_true; auto). destruct (in_dec Z.eq_dec x M) as [XM|XM]; [|apply NEWIN; auto].
        rewrite FR by (intros y Y1 Y2 Z; apply Y2; replace y with x by lia; auto). rewrite (sh_head _ _ _ SH x Hx). replace (isin x M) with true by (symmetry; apply isin_true; auto). reflexivity.
      * replace (isin x M') with false by (symmetry; apply isin_false; auto). rewrite FR by (intros y Y1 Y2 Z; apply X; replace x with y by lia; auto).
        rewrite (sh_head _ _ _ SH x Hx). replace (isin x M) with false by (symmetry; apply isin_false; auto). reflexivity.
    + apply (sh_even _ _ _ SH).
    + intros x l1 o c l2 Hx E. destruct (sh_off _ _ _ SH x l1 o c l2 Hx E) as [P1 P2]. split; auto. rewrite (FRH x); auto.
      intros y Hy Z. apply (ap_hd g AP y x Hy Hx). rewrite <- Z. eapply dword_off; eauto.
    + intros x Hx. rewrite (FRH x); auto. { apply (sh_end _ _ _ SH x Hx). } intros y Hy Z. apply (ap_hd g AP y x Hy Hx). rewrite <- Z. apply dword_end.
    + intros x o c Hx I. destruct (sh_fld _ _ _ SH x o c Hx I) as [P1 P2]. split; auto. rewrite (FRH x); auto. intros y Hy Z. symmetry in Z. revert Z. apply (ap_hf g AP y x o c); auto.
  - apply (vi_nd _ _ _ _ _ _ B).
  - apply (vi_in _ _ _ _ _ _ B).
  - auto.
  - intro x. split.
    + intro X. destruct (in_dec Z.eq_dec x M) as [XM|XM]; auto. right. destruct (Z.eq_dec x q) as [->|N]; [constructor; auto|].
      apply (vi_new _ _ _ _ _ _ B x X). intros [Z|Z]; congruence.
    + intros [X|X]; auto. induction X; [apply (vi_incl _ _ _ _ _ _ B); left; auto|]. eapply CLX; eauto.
  - intros a Z. apply FR. intros x X _. apply Z. apply (vi_in _ _ _ _ _ _ B); auto.
Qed.

(** Marking a list of roots. *)
Lemma mark_roots_spec : forall g roots m M, apart g -> shows m g M -> NoDup M -> incl M (objs g) -> mclosed g M -> Forall (fun q => q = 0 \/ In q (objs g)) roots ->
  exists N m' M', (forall fuel, (N <= fuel)%nat -> mark_roots fuel m roots = Ok m') /\ shows m' g M' /\ NoDup M' /\ incl M' (objs g) /\ mclosed g M' /\
    (forall x, In x M' <-> In x M \/ exists q, In q roots /\ reach g q x) /\ (forall a, (forall x, In x (objs g) -> a <> x - 8) -> m' a = m a).
Proof.
  intros g roots. induction roots as [|q roots IH]; intros m M AP SH ND IN CL F.
  - exists 0%nat, m, M. split; [reflexivity|]. conjs; auto. intro x. split; auto. intros [H|(q & [] & _)]; auto.
  - inversion F; subst. destruct (Mark_spec g m M q AP SH ND IN CL H1) as (N1 & m1 & M1 & A1 & B1 & C1 & D1 & E1 & F1 & G1).
    destruct (IH m1 M1 AP B1 C1 D1 E1 H2) as (N2 & m2 & M2 & A2 & B2 & C2 & D2 & E2 & F2 & G2).
    exists (N1 + N2)%nat, m2, M2. split; [|conjs; auto].
    + intros fuel L. cbn [mark_roots]. rewrite A1 by lia. rewrite bind_ok. apply A2. lia.
    + intro x. rewrite F2, F1. split.
      * intros [[H|H]|(r & R1 & R2)]; auto; right; [exists q|exists r]; split; auto; [left|right]; auto.
      * intros [H|(r & [<-|R1] & R2)]; auto. right. eauto.
    + intros a H. rewrite G2, G1 by auto. reflexivity.
Qed.
