From Verif Require Import Base CStrModel CStrSpec.

(** [lex_lt] is a strict total order. *)
Lemma lex_lt_cons : forall c s t, lex_lt (c :: s) (c :: t) <-> lex_lt s t.
Proof.
  intros c s t. split.
  - intros [(d & r & H)|(p & a & b & r1 & r2 & H1 & H2 & H3)].
    + left. exists d, r. simpl in H. congruence.
    + right. destruct p as [|e p]; simpl in *.
      * assert (c = a) by congruence. assert (c = b) by congruence. lia.
      * exists p, a, b, r1, r2. repeat split; congruence.
  - intros [(d & r & H)|(p & a & b & r1 & r2 & H1 & H2 & H3)].
    + left. exists d, r. simpl. congruence.
    + right. exists (c :: p), a, b, r1, r2. simpl. repeat split; try congruence.
Qed.

Lemma lex_lt_nil : forall t, lex_lt [] t <-> t <> [].
Proof.
  intro t. split.
  - intros [(c & r & H)|(p & a & b & r1 & r2 & H1 & H2 & H3)].
    + simpl in H. subst. discriminate.
    + destruct p; discriminate.
  - intro H. destruct t as [|c r]; [congruence|]. left. exists c, r. reflexivity.
Qed.

Lemma lex_lt_nil_r : forall s, ~ lex_lt s [].
Proof.
  intros s [(c & r & H)|(p & a & b & r1 & r2 & H1 & H2 & H3)].
  - destruct s; discriminate.
  - destruct p; discriminate.
Qed.

Lemma lex_lt_head : forall c d s t, c <> d -> (lex_lt (c :: s) (d :: t) <-> c < d).
Proof.
  intros c d s t Hne. split.
  - intros [(e & r & H)|(p & a & b & r1 & r2 & H1 & H2 & H3)].
    + simpl in H. congruence.
    + destruct p as [|e p]; simpl in *; [|congruence].
      assert (c = a) by congruence. assert (d = b) by congruence. lia.
  - intro H. right. exists [], c, d, s, t. auto.
Qed.

Lemma lex_irrefl : forall s, ~ lex_lt s s.
Proof.
  induction s as [|c s IH]. { apply lex_lt_nil_r. } rewrite lex_lt_cons. auto.
Qed.

Lemma lex_trans : forall s t u, lex_lt s t -> lex_lt t u -> lex_lt s u.
Proof.
  induction s as [|a s IH]; intros t u H1 H2.
  - apply lex_lt_nil. intro E; subst u. eapply lex_lt_nil_r; eauto.
  - destruct t as [|b t]. { exfalso. eapply lex_lt_nil_r; eauto. }
    destruct u as [|c u]. { exfalso. eapply lex_lt_nil_r; eauto. }
    destruct (Z.eq_dec a b); destruct (Z.eq_dec b c); subst.
    + apply lex_lt_cons in H1. apply lex_lt_cons in H2. apply lex_lt_cons. eauto.
    + apply lex_lt_head in H2; auto. apply lex_lt_head; auto.
    + apply lex_lt_head in H1; auto. apply lex_lt_head; auto.
    + apply lex_lt_head in H1; auto. apply lex_lt_head in H2; auto. apply lex_lt_head; lia.
Qed.

Lemma lex_total : forall s t, lex_lt s t \/ s = t \/ lex_lt t s.
Proof.
  induction s as [|a s IH]; intros [|b t]; auto.
  - left. apply lex_lt_nil. discriminate.
  - right; right. apply lex_lt_nil. discriminate.
  - destruct (Z.eq_dec a b).
    + subst. rewrite !lex_lt_cons. destruct (IH t) as [H|[H|H]]; subst; auto.
    + rewrite !lex_lt_head by auto. lia.
Qed.

Lemma str_cmp_spec : forall a b, bytes a -> bytes b -> terminated a -> terminated b ->
  exists v, str_cmp a b = Ok v /\
    (v < 0 <-> lex_lt (str_of a) (str_of b)) /\
    (v = 0 <-> str_of a = str_of b) /\
    (v > 0 <-> lex_lt (str_of b) (str_of a)).
Proof.
  induction a as [|c a IH]; intros b Ba Bb Ta Tb; [destruct Ta|].
  destruct b as [|d b]; [destruct Tb|].
  inversion Ba as [|? ? Hc Ba']; subst. inversion Bb as [|? ? Hd Bb']; subst.
  unfold is_byte in *. cbn [str_cmp str_of].
  destruct (c =? 0) eqn:Ec.
  - exists (- d). split; auto. destruct (d =? 0) eqn:Ed.
    + refine (conj _ (conj _ _)); split; intro H; try lia; try reflexivity;
        exfalso; eapply lex_irrefl; eauto.
    + rewrite lex_lt_nil. refine (conj _ (conj _ _)); split; intro H; try lia; try discriminate.
      exfalso. eapply lex_lt_nil_r; eauto.
  - destruct Ta as [Ta|Ta]; [lia|]. destruct (c =? d) eqn:Ecd.
    + assert (c = d) by lia. subst d. destruct Tb as [Tb|Tb]; [lia|].
      destruct (IH b Ba' Bb' Ta Tb) as (v & Hv & H1 & H2 & H3). rewrite Ec.
      exists v. split; auto. rewrite !lex_lt_cons. refine (conj H1 (conj _ H3)).
      rewrite H2. split; intro H; congruence.
    + exists (c - d). split; auto. destruct (d =? 0) eqn:Ed.
      * rewrite lex_lt_nil. refine (conj _ (conj _ _)); split; intro H; try lia; try discriminate.
        exfalso. eapply lex_lt_nil_r; eauto.
      * rewrite !lex_lt_head by lia. refine (conj _ (conj _ _)); split; intro H; try lia.
        exfalso. assert (c = d) by congruence. lia.
Qed.

(** ** COPY *)

Definition fits (s d : list Z) : Prop := terminated s \/ (length d <= S (length s))%nat.

Lemma nth_error_str_of : forall s k, (k < length (str_of s))%nat ->
  nth_error s k = nth_error (str_of s) k /\ nth_error s k <> Some 0.
Proof.
  induction s as [|c s IH]; intros k H; simpl in *; [lia|].
  destruct (c =? 0) eqn:E; simpl in *; [lia|].
  destruct k as [|k]; simpl; [split; auto; intro; assert (c = 0) by congruence; lia|].
  apply IH. lia.
Qed.

Lemma nth_error_str_end : forall s, terminated s -> nth_error s (length (str_of s)) = Some 0.
Proof.
  intros s H. destruct (terminated_split s H) as [r Hr].
  rewrite Hr at 1. rewrite nth_error_app2 by lia. rewrite Nat.sub_diag. reflexivity.
Qed.

Lemma firstn_S_snoc : forall A k (l : list A) x, nth_error l k = Some x -> firstn (S k) l = firstn k l ++ [x].
Proof.
  intros A k. induction k as [|k IH]; intros [|y l] x H; simpl in *; try discriminate.
  - congruence.
  - f_equal. apply IH. auto.
Qed.

Lemma skipn_cons_nth : forall A k (l : list A), (k < length l)%nat -> exists x, skipn k l = x :: skipn (S k) l.
Proof.
  intros A k. induction k as [|k IH]; intros [|y l] H; simpl in *; try lia.
  - eauto.
  - apply IH. lia.
Qed.


(** Loop invariant: after i steps the destination is the first i characters followed by its old tail. *)
Lemma copy_loop_spec : forall fuel s d i, fits s d ->
  (1 <= length d)%nat ->
  (i <= length (str_of s))%nat -> (i <= length d - 1)%nat -> (length d < fuel + i)%nat ->
  let k := Nat.min (length (str_of s)) (length d - 1) in
  exists b, copy_loop fuel s (firstn i (str_of s) ++ skipn i d) (Z.of_nat i) (Z.of_nat (length d) - 1)
    = Ok (b, Z.of_nat k) /\
    exists x, b = firstn k (str_of s) ++ x :: skipn (S k) d.
Proof.
  induction fuel as [|fuel IH]; intros s d i Hf Hd Hi1 Hi2 Hfu k; [lia|].
  cbn [copy_loop].
  assert (Lfi : length (firstn i (str_of s)) = i) by (rewrite firstn_length; lia).
  destruct (skipn_cons_nth _ i d ltac:(lia)) as [y Hy].
  destruct (Z.of_nat i <? Z.of_nat (length d) - 1) eqn:E.
  - assert (Hrd : exists c, nth_error s i = Some c /\
        ((i < length (str_of s))%nat /\ c <> 0 /\ nth_error (str_of s) i = Some c
         \/ i = length (str_of s) /\ c = 0)).
    { destruct (Nat.eq_dec i (length (str_of s))) as [He|Hne].
      - destruct Hf as [Ht|Hl].
        + exists 0. split; [rewrite He; apply nth_error_str_end; auto | right; auto].
        + (* not terminated is impossible to distinguish; decide *)
          destruct (in_dec Z.eq_dec 0 s) as [Ht|Hn].
          * exists 0. split; [rewrite He; apply nth_error_str_end; auto | right; auto].
          * exfalso. assert (str_of s = s).
            { clear -Hn. induction s as [|c s IH]; simpl; auto.
              destruct (c =? 0) eqn:E; [exfalso; apply Hn; left; lia|].
              f_equal. apply IH. intro. apply Hn. now right. }
            rewrite H in He. lia.
      - destruct (nth_error_str_of s i ltac:(lia)) as [H1 H2].
        destruct (nth_error s i) as [c|] eqn:Es.
        + exists c. split; auto. left. repeat split; [lia | congruence | congruence].
        + exfalso. apply nth_error_None in Es. pose proof (str_of_length s). lia. }
    destruct Hrd as (c & Hc & Hcase).
    rewrite (rawget_ok _ _ _ c) by (try lia; rewrite Nat2Z.id; auto). rewrite bind_ok.
    rewrite rawset_ok.
    2:{ rewrite app_length, skipn_length, Lfi. lia. }
    rewrite bind_ok, Nat2Z.id, Hy.
    rewrite (set_nth_app _ _ i) by auto.
    destruct Hcase as [(H1 & H2 & H3)|(H1 & H2)].
    + replace (c =? 0) with false by lia.
      replace (firstn i (str_of s) ++ c :: skipn (S i) d)
        with (firstn (S i) (str_of s) ++ skipn (S i) d).
      2:{ rewrite (firstn_S_snoc _ _ _ c) by auto. rewrite <- app_assoc. reflexivity. }
      replace (Z.of_nat i + 1) with (Z.of_nat (S i)) by lia.
      apply IH; auto; lia.
    + subst c. replace (0 =? 0) with true by lia.
      assert (Hk : k = i) by (unfold k; lia). rewrite Hk.
      eexists. split; [reflexivity|]. exists 0. reflexivity.
  - assert (Hk : k = i) by (unfold k; lia). rewrite Hk.
    eexists. split; [reflexivity|]. exists y. rewrite Hy. reflexivity.
Qed.

Lemma COPY_spec : forall s d, fits s d -> (1 <= length d)%nat ->
  let k := Nat.min (length (str_of s)) (length d - 1) in
  COPY s d = Ok (firstn k (str_of s) ++ 0 :: skipn (S k) d).
Proof.
  intros s d Hf Hd k. unfold COPY.
  destruct (copy_loop_spec (S (length d)) s d 0 Hf Hd ltac:(lia) ltac:(lia) ltac:(lia)) as (b & Hb & x & Hx).
  change (firstn 0 (str_of s) ++ skipn 0 d) with d in Hb. change (Z.of_nat 0) with 0 in Hb.
  rewrite Hb, bind_ok. fold k. fold k in Hx.
  assert (Lk : length (firstn k (str_of s)) = k) by (rewrite firstn_length; unfold k; lia).
  rewrite rawset_ok.
  - rewrite Nat2Z.id, Hx. rewrite set_nth_app by auto. reflexivity.
  - rewrite Hx, app_length, Lk. simpl. lia.
Qed.
