(** C83: designators are accepted by the rules of the language, and then denote existing variables of their type. *)
From Verif Require Import Base AsgModel AsgSpec AsgProps OperModel OperSpec DesigModel DesigSpec.

Lemma bind_inv2 : forall A B (m : res A) (k : A -> res B) b, bind m k = Ok b -> exists a, m = Ok a /\ k a = Ok b.
Proof. intros A B m k b H. destruct m; cbn in H; try discriminate. eauto. Qed.

Section WithTable.
Variable E : env.
Notation T t := (str E t).
Variable own : tid -> name -> option field.
Hypothesis TB : table E.

Lemma form_record : forall t, scomp (T t) = Record_ -> sform (T t) <> FPointer.
Proof. intros t H. assert (sform (T t) = FComp) by (apply (t_comp E TB); rewrite H; discriminate). congruence. Qed.
Ltac prc := match goal with a : scomp (T ?t) = Record_, b : sform (T ?t) = FPointer |- _ => destruct (form_record _ a b) end.
Lemma form_array : forall t, scomp (T t) = Array \/ scomp (T t) = DynArr -> sform (T t) <> FPointer.
Proof. intros t H. assert (sform (T t) = FComp) by (apply (t_comp E TB); destruct H as [-> | ->]; discriminate). congruence. Qed.
Lemma undef_not_record : forall t, scomp (T t) = Record_ -> t <> undftyp E.
Proof. intros t H ->. rewrite (t_undfc E TB) in H. discriminate. Qed.

(** ** The rules *)
Lemma FindField_spec : forall fuel t n r, FindField E own fuel (Some t) n = Ok r ->
  match r with Some (c, f) => field_of E own t n c f | None => forall c f, ~ field_of E own t n c f end.
Proof.
  induction fuel as [|k IH]; intros t n r H; cbn [FindField] in H; destruct (own t n) as [f|] eqn:O.
  - inversion H; subst. apply fo_own; auto.
  - discriminate.
  - inversion H; subst. apply fo_own; auto.
  - destruct (sbase (T t)) as [b|] eqn:B.
    + apply IH in H. destruct r as [[c f]|].
      * eapply fo_base; eauto.
      * intros c f F. inversion F; subst; [congruence|]. match goal with h : sbase _ = Some ?b0 |- _ => rewrite B in h; inversion h; subst end. eapply H; eauto.
    + destruct k; inversion H; subst; intros c f F; inversion F; congruence.
Qed.
Lemma field_of_unique : forall t n c f, field_of E own t n c f -> forall c' f', field_of E own t n c' f' -> c = c' /\ f = f'.
Proof.
  intros t n c f H. induction H as [t n f O|t b n c f O B F IH]; intros c' f' H'; inversion H'; subst; try congruence.
  - split; congruence.
  - match goal with h : sbase _ = Some ?b0, h' : sbase _ = Some b |- _ => rewrite B in h; inversion h; subst end. auto.
Qed.
Lemma field_extends : forall t n c f, field_of E own t n c f -> scomp (T t) = Record_ -> extends E t c /\ own c n = Some f.
Proof.
  intros t n c f H. induction H as [t n f O|t b n c f O B F IH]; intros R; [split; [constructor|auto]|].
  destruct IH as [X Y]; [eapply (t_rbase E TB); eauto|]. split; auto. eapply ext_step; eauto.
Qed.
Lemma walk_record : forall fuel a g r, walk E fuel (Some a) g = Ok r -> scomp (T a) = Record_ -> (is_some r g = true <-> extends E a g).
Proof.
  induction fuel as [|k IH]; intros a g r H R; cbn [walk] in H.
  - destruct (Nat.eqb a g || Nat.eqb a (undftyp E)) eqn:Q; [|discriminate]. inversion H; subst. cbn [is_some].
    apply orb_true_iff in Q as [Q|Q]; apply Nat.eqb_eq in Q; subst; [|destruct (undef_not_record _ R); auto].
    rewrite Nat.eqb_refl. split; auto. constructor.
  - destruct (Nat.eqb a g || Nat.eqb a (undftyp E)) eqn:Q.
    + inversion H; subst. cbn [is_some].
      apply orb_true_iff in Q as [Q|Q]; apply Nat.eqb_eq in Q; subst; [|destruct (undef_not_record _ R); auto].
      rewrite Nat.eqb_refl. split; auto. constructor.
    + apply orb_false_iff in Q as [Q _]. apply Nat.eqb_neq in Q. destruct (sbase (T a)) as [b|] eqn:B.
      * apply IH in H; [|eapply (t_rbase E TB); eauto]. rewrite H. split.
        -- intros X. eapply ext_step; eauto.
        -- intros X. inversion X; subst; [congruence|]. match goal with h : sbase _ = Some ?b0, h' : extends E ?b0 g |- _ => rewrite B in h; inversion h; subst; auto end.
      * destruct k; inversion H; subst; cbn [is_some]; split; try discriminate; intros X; inversion X; subst; congruence.
Qed.
Lemma extends_antisym : forall rank, ranked E rank -> forall a b, extends E a b -> extends E b a -> a = b.
Proof.
  intros rank RK. assert (LE : forall a b, extends E a b -> a = b \/ (rank b < rank a)%nat).
  { intros a b H. induction H as [|d c b R B H IH]; auto. pose proof (proj1 RK d c R B). right. destruct IH as [->|IH]; lia. }
  intros a b X Y. destruct (LE _ _ X), (LE _ _ Y); auto; lia.
Qed.
Lemma GTT_spec : forall rank, ranked E rank -> forall fuel x t0 t1 g e node, GTT E fuel x t0 t1 g = Ok (e, node) -> scomp (T t0) = Record_ -> scomp (T t1) = Record_ ->
  e = [] /\ extends E t1 t0 /\ (node = false -> t0 = t1) /\ (t0 = t1 -> node = negb g && (cls_of x =? 5)) \/ e <> [] /\ ~ extends E t1 t0.
Proof.
  intros rank RK fuel x t0 t1 g e node H R0 R1. unfold GTT in H. apply bind_inv2 in H as (a & A & H).
  pose proof (walk_record _ _ _ _ A R0) as WA. destruct (is_some a t1) eqn:SA; cbn [negb] in H.
  - assert (X : extends E t0 t1) by (apply WA; auto). destruct (Nat.eqb t0 t1) eqn:Q; cbn [negb] in H.
    + apply Nat.eqb_eq in Q. inversion H; subst. left. repeat split; auto.
    + apply Nat.eqb_neq in Q. inversion H; subst. right. split; [discriminate|]. intros Y. apply Q. eapply extends_antisym; eauto.
  - assert (NX : ~ extends E t0 t1) by (intros X; apply WA in X; discriminate). apply bind_inv2 in H as (b & B & H).
    pose proof (walk_record _ _ _ _ B R1) as WB.
    assert (U : is_form (sform (T t0)) FUndef = false).
    { assert (sform (T t0) = FComp) by (apply (t_comp E TB); rewrite R0; discriminate). rewrite H0. reflexivity. }
    rewrite U, orb_false_r in H. destruct (is_some b t0); inversion H; subst.
    + left. split; auto. split; [apply WB; auto|]. split; [discriminate|]. intros ->. destruct NX. constructor.
    + right. split; [discriminate|]. intros X. apply WB in X. discriminate.
Qed.
Definition cls_ok (x : des) : Prop := cls_of x < Nconst.
Lemma cls_iff : forall x, cls_of x >=? Nconst = false <-> cls_ok x.
Proof. intros x. unfold cls_ok. rewrite Z.geb_leb, Z.leb_gt. tauto. Qed.
Lemma DeRef_spec : forall x x' e, DeRef E x = Ok (x', e) ->
  (e = [] -> cls_ok x /\ sform (T (ty_of x)) = FPointer /\ ty_of x <> sysptrtyp E /\ exists b, sbase (T (ty_of x)) = Some b /\ x' = DDeref x b) /\
  (cls_ok x -> sform (T (ty_of x)) = FPointer -> ty_of x <> sysptrtyp E -> e = []).
Proof.
  intros x x' e H. unfold DeRef in H. destruct (cls_of x >=? Nconst) eqn:C.
  - inversion H; subst. split; [discriminate|]. intros X. apply cls_iff in X. congruence.
  - apply cls_iff in C. destruct (is_form (sform (T (ty_of x))) FPointer) eqn:F.
    + apply is_form_iff in F. apply bind_inv2 in H as (b & B & H). unfold deref in B. destruct (sbase (T (ty_of x))) as [b'|] eqn:SB; inversion B; subst.
      destruct (Nat.eqb (ty_of x) (sysptrtyp E)) eqn:Q; inversion H; subst.
      * apply Nat.eqb_eq in Q. split; [discriminate|contradiction].
      * apply Nat.eqb_neq in Q. split; auto. intros _. repeat split; eauto.
    + inversion H; subst. split; [discriminate|]. intros _ X. apply is_form_iff in X. congruence.
Qed.
(** Without errors the pointer is followed. *)
Lemma implied_spec : forall x x' e, implied E x = Ok (x', e) ->
  (e = [] -> target E x (ty_of x') /\ (cls_ok x' <-> cls_ok x) /\
     (sform (T (ty_of x)) <> FPointer /\ x' = x \/ sform (T (ty_of x)) = FPointer /\ DeRef E x = Ok (x', []))) /\
  (cls_ok x -> (exists t, target E x t) -> e = []).
Proof.
  intros x x' e H. unfold implied in H. destruct (is_form (sform (T (ty_of x))) FPointer) eqn:F.
  - apply is_form_iff in F. pose proof (DeRef_spec _ _ _ H) as [A B]. split.
    + intros ->. destruct (A eq_refl) as (C & _ & N & b & SB & ->). split; [apply tg_ptr; auto|]. split; [split; auto; intros _; reflexivity|]. auto.
    + intros C [t TG]. inversion TG; subst; [contradiction|]. auto.
  - assert (NF : sform (T (ty_of x)) <> FPointer) by (intros X; apply is_form_iff in X; congruence).
    inversion H; subst. split; auto. intros _. split; [apply tg_self; auto|]. split; [tauto|auto].
Qed.
Lemma target_unique : forall x a b, target E x a -> target E x b -> a = b.
Proof. intros x a b A B. inversion A; inversion B; subst; congruence. Qed.
Lemma not_value_iff : forall x, not_value x = false <-> value_node x.
Proof. intros x. unfold not_value, value_node. rewrite orb_false_iff, !Z.eqb_neq. tauto. Qed.
Lemma const_iff : forall x, is_const x = true <-> ocl x = Nconst.
Proof. intros. unfold is_const. apply Z.eqb_eq. Qed.
Lemma Index_spec : forall x y se x' e, Index E x y se = Ok (x', e) ->
  exists b, x' = DIndex x y se b (ro_of x) /\ (scomp (T (ty_of x)) = Array \/ scomp (T (ty_of x)) = DynArr -> sbase (T (ty_of x)) = Some b) /\
  (e = [] <-> cls_ok x /\ (scomp (T (ty_of x)) = Array \/ scomp (T (ty_of x)) = DynArr) /\ sbase (T (ty_of x)) = Some b /\ value_node y /\ int_ E (oty y) /\
     (ocl y = Nconst -> 0 <= oiv y /\ (scomp (T (ty_of x)) = Array -> oiv y < sn (T (ty_of x))))).
Proof.
  intros x y se x' e H. unfold Index in H. apply bind_inv2 in H as ([b e2] & B & H). inversion H; subst. exists b. split; auto. clear H. split.
  { intros [A|A]; rewrite A in B; cbn [is_comp] in B; apply bind_inv2 in B as (b' & D & B); unfold deref in D; destruct (sbase (T (ty_of x))); inversion D; subst; injection B as <- _; auto. }
  assert (E1 : (if cls_of x >=? Nconst then [79] else if negb (is_form (sform (T (oty y))) FInt) || not_value y then [80] else []) = [] <->
    cls_ok x /\ value_node y /\ int_ E (oty y)).
  { rewrite <- cls_iff, <- not_value_iff. unfold int_. rewrite <- is_form_iff. destruct (cls_of x >=? Nconst); [split; [discriminate|intuition discriminate]|].
    destruct (is_form (sform (T (oty y))) FInt), (not_value y); cbn [negb orb]; split; auto; try discriminate; intuition discriminate. }
  assert (APP : forall (l : list Z), l ++ e2 = [] <-> l = [] /\ e2 = []).
  { intros l. split; [apply app_eq_nil|]. intros [-> ->]. reflexivity. }
  rewrite APP, E1. clear E1 APP.
  destruct (is_comp (scomp (T (ty_of x))) Array) eqn:CA.
  - apply is_comp_iff in CA. apply bind_inv2 in B as (b' & D & B). unfold deref in D. destruct (sbase (T (ty_of x))) as [b0|] eqn:SB; inversion D; subst.
    injection B as -> <-. rewrite CA. pose proof (const_iff y) as CI. destruct (is_const y); cbn [andb].
    + assert (K : ocl y = Nconst) by (apply CI; auto). destruct ((oiv y <? 0) || (oiv y >=? sn (T (ty_of x)))) eqn:Q.
      * split; [intuition discriminate|]. intros (_ & _ & _ & _ & _ & Z). destruct (Z K) as [Z1 Z2]. specialize (Z2 eq_refl).
        apply orb_true_iff in Q as [Q|Q]; [apply Z.ltb_lt in Q|apply Z.geb_le in Q]; lia.
      * apply orb_false_iff in Q as [Q1 Q2]. apply Z.ltb_ge in Q1. rewrite Z.geb_leb in Q2. apply Z.leb_gt in Q2. intuition.
    + assert (K : ocl y <> Nconst) by (intros K; apply CI in K; discriminate). intuition.
  - assert (NA : scomp (T (ty_of x)) <> Array) by (intros X; apply is_comp_iff in X; congruence).
    destruct (is_comp (scomp (T (ty_of x))) DynArr) eqn:CD.
    + apply is_comp_iff in CD. apply bind_inv2 in B as (b' & D & B). unfold deref in D. destruct (sbase (T (ty_of x))) as [b0|] eqn:SB; inversion D; subst.
      injection B as -> <-. pose proof (const_iff y) as CI. destruct (is_const y); cbn [andb].
      * assert (K : ocl y = Nconst) by (apply CI; auto). destruct (oiv y <? 0) eqn:Q.
        -- split; [intuition discriminate|]. intros (_ & _ & _ & _ & _ & Z). destruct (Z K) as [Z1 Z2]. apply Z.ltb_lt in Q. lia.
        -- apply Z.ltb_ge in Q. rewrite CD. intuition congruence.
      * assert (K : ocl y <> Nconst) by (intros K; apply CI in K; discriminate). rewrite CD. intuition.
    + assert (ND : scomp (T (ty_of x)) <> DynArr) by (intros X; apply is_comp_iff in X; congruence).
      injection B as _ <-. intuition discriminate.
Qed.
Lemma TypTest_spec : forall rank, ranked E rank -> forall fuel x t g e node, TypTest E fuel x t g = Ok (e, node) -> record_guard E (SGuard t) ->
  (e = [] <-> lawful E own x (SGuard t) t) /\
  (e = [] -> ty_of x <> sysptrtyp E ->
     sform (T (ty_of x)) = FPointer /\ sform (T t) = FPointer /\ (exists b d, sbase (T (ty_of x)) = Some b /\ sbase (T t) = Some d /\ scomp (T b) = Record_ /\ scomp (T d) = Record_ /\
        extends E d b /\ (node = false -> b = d) /\ (b = d -> node = negb g && (cls_of x =? 5))) \/
     cls_of x = Nvarpar /\ scomp (T (ty_of x)) = Record_ /\ scomp (T t) = Record_ /\ extends E t (ty_of x) /\ (node = false -> t = ty_of x) /\
        (t = ty_of x -> node = negb g && (cls_of x =? 5))).
Proof.
  intros rank RK fuel x t g e node H RG. unfold TypTest in H.
  destruct (cls_of x >=? Nconst) eqn:C.
  { inversion H; subst. assert (NC : ~ cls_ok x) by (rewrite <- cls_iff; congruence). split; [|discriminate]. split; [discriminate|].
    intros L. exfalso. apply NC. inversion L; subst; auto; unfold cls_ok; match goal with h : cls_of x = Nvarpar |- _ => rewrite h; reflexivity end. }
  apply cls_iff in C. destruct (is_form (sform (T (ty_of x))) FPointer) eqn:F.
  - apply is_form_iff in F. apply bind_inv2 in H as (b & B & H). unfold deref in B. destruct (sbase (T (ty_of x))) as [b'|] eqn:SB; inversion B; subst b'.
    destruct (Nat.eqb (ty_of x) (sysptrtyp E)) eqn:Q.
    + apply Nat.eqb_eq in Q. rewrite andb_false_r in H.
      destruct (is_form (sform (T t)) FPointer) eqn:FT.
      * apply is_form_iff in FT. apply bind_inv2 in H as (d & D & H). unfold deref in D. destruct (sbase (T t)) as [d'|] eqn:SD; inversion D; subst d'.
        assert (RD : scomp (T d) = Record_) by (eapply RG; eauto).
        assert (BU : b = undftyp E). { rewrite Q in SB. rewrite (t_sysptrb E TB) in SB. congruence. }
        assert (EE : e = []).
        { unfold GTT in H. apply bind_inv2 in H as (a & A & H).
          assert (a = Some b). { destruct fuel; cbn [walk] in A; rewrite BU, Nat.eqb_refl, orb_true_r in A; inversion A; auto. }
          subst a. cbn [is_some] in H. destruct (Nat.eqb b d) eqn:BD; [apply Nat.eqb_eq in BD; destruct (undef_not_record d); auto; congruence|].
          cbn [negb] in H. apply bind_inv2 in H as (a & A2 & H). rewrite BU, (t_undf E TB), orb_true_r in H. inversion H. auto. }
        split; [|intros _ N; contradiction]. split; auto. intros _. apply law_guard_sys; auto.
      * inversion H; subst. split; [|discriminate]. split; [discriminate|]. intros L.
        assert (NF : sform (T t) <> FPointer) by (intros X; apply is_form_iff in X; congruence).
        exfalso. inversion L; subst; auto. prc.
    + apply Nat.eqb_neq in Q. rewrite andb_true_r in H. destruct (is_comp (scomp (T b)) Record_) eqn:RB; cbn [negb] in H.
      * apply is_comp_iff in RB. destruct (is_form (sform (T t)) FPointer) eqn:FT.
        -- apply is_form_iff in FT. apply bind_inv2 in H as (d & D & H). unfold deref in D. destruct (sbase (T t)) as [d'|] eqn:SD; inversion D; subst d'.
           assert (RD : scomp (T d) = Record_) by (eapply RG; eauto).
           destruct (GTT_spec rank RK _ _ _ _ _ _ _ H RB RD) as [(-> & X & N & K)|(NE & NX)].
           ++ split; [split; auto; intros _; eapply law_guard_ptr; eauto|]. intros _ _. left. split; auto. split; auto. exists b, d. repeat split; auto.
           ++ split; [split; [contradiction|]|contradiction]. intros L. exfalso. inversion L; subst; try contradiction; try congruence; prc.
        -- inversion H; subst. split; [|discriminate]. split; [discriminate|]. intros L.
           assert (NF : sform (T t) <> FPointer) by (intros X; apply is_form_iff in X; congruence).
           exfalso. inversion L; subst; auto. prc.
      * inversion H; subst. split; [|discriminate]. split; [discriminate|]. intros L.
        assert (NR : scomp (T b) <> Record_) by (intros X; apply is_comp_iff in X; congruence).
        exfalso. inversion L; subst; try contradiction; try congruence; prc.
  - assert (NF : sform (T (ty_of x)) <> FPointer) by (intros X; apply is_form_iff in X; congruence).
    assert (SP : ty_of x <> sysptrtyp E) by (intros X; rewrite X in NF; apply NF; apply (t_sysptr E TB)).
    destruct (is_comp (scomp (T (ty_of x))) Record_ && (cls_of x =? Nvarpar) && is_comp (scomp (T t)) Record_) eqn:Q.
    + apply andb_true_iff in Q as [Q Q3]. apply andb_true_iff in Q as [Q1 Q2]. apply is_comp_iff in Q1, Q3. apply Z.eqb_eq in Q2.
      destruct (GTT_spec rank RK _ _ _ _ _ _ _ H Q1 Q3) as [(-> & X & N & K)|(NE & NX)].
      * split; [split; auto; intros _; apply law_guard_rec; auto|]. intros _ _. right. split; [auto|]. repeat split; auto. intros Z. symmetry. auto.
      * split; [split; [contradiction|]|contradiction]. intros L. exfalso. inversion L; subst; contradiction.
    + inversion H; subst. split; [|discriminate]. split; [discriminate|]. intros L. exfalso. inversion L; subst; try contradiction.
      match goal with a : cls_of x = Nvarpar, b : scomp (T (ty_of x)) = Record_, c : scomp (T t) = Record_ |- _ =>
        apply is_comp_iff in b, c; rewrite b, c, a in Q end. discriminate.
Qed.
Lemma retype_ty : forall x t, ty_of (retype x t) = t.
Proof. destruct x; reflexivity. Qed.
Lemma Guard_ty : forall fuel x t x' e, Guard E fuel x t = Ok (x', e) -> ty_of x' = t.
Proof. intros fuel x t x' e H. unfold Guard in H. apply bind_inv2 in H as ([e0 node] & _ & H). inversion H. destruct node; [reflexivity|apply retype_ty]. Qed.
(** A selector is accepted exactly if the language allows it after the designator, and the result has the type the language says; here type guards
    name pointers to records or records. *)
Theorem C83_exact_partial : forall rank, ranked E rank -> forall fuel x s x' e, record_guard E s -> select E own fuel x s = Ok (x', e) ->
  (e = [] <-> exists t, lawful E own x s t) /\ (e = [] -> lawful E own x s (ty_of x')).
Proof.
  intros rank RK fuel x s x' e RG H. destruct s as [y se|n| |t]; cbn [select] in H.
  - apply bind_inv2 in H as ([x1 e1] & I & H). apply bind_inv2 in H as ([x2 e2] & X & H). injection H as <- <-.
    apply implied_spec in I as [I1 I2]. apply Index_spec in X as (b & -> & BB & X).
    assert (S : e1 ++ e2 = [] -> lawful E own x (SIndex y se) b).
    { intros Q. apply app_eq_nil in Q as [-> ->]. destruct (I1 eq_refl) as (TG & C & _). destruct (proj1 X eq_refl) as (C1 & A & B & V & N & K).
      eapply law_index; eauto. apply C; auto. }
    split; [split|]; auto; [intros Q; exists b; auto|]. intros [t L]. inversion L; subst.
    assert (e1 = []) as -> by (apply I2; eauto). destruct (I1 eq_refl) as (TG & C & _). cbn [app]. apply X.
    assert (a = ty_of x1) by (eapply target_unique; eauto). subst a.
    split; [apply C; auto|]. split; [auto|]. split; [auto|]. split; [auto|]. split; auto.
  - apply bind_inv2 in H as ([x1 e1] & I & H). apply implied_spec in I as [I1 I2].
    destruct (is_comp (scomp (T (ty_of x1))) Record_) eqn:R.
    + apply is_comp_iff in R. apply bind_inv2 in H as (f & F & H). apply FindField_spec in F. unfold Field in H.
      destruct (cls_of x1 >=? Nconst) eqn:C.
      * assert (NC : ~ cls_ok x1) by (rewrite <- cls_iff; congruence).
        assert (NE : e <> []). { destruct f as [[c f]|]; inversion H; subst; intros Q; apply app_eq_nil in Q as [_ Q]; discriminate. }
        split; [split; [contradiction|]|contradiction]. intros [t L]. exfalso. inversion L; subst.
        assert (e1 = []) as -> by (apply I2; eauto). destruct (I1 eq_refl) as (_ & C1 & _). apply NC, C1; auto.
      * apply cls_iff in C. destruct f as [[c f]|]; injection H as <- <-.
        -- rewrite app_nil_r. cbn [ty_of].
           assert (S : e1 = [] -> lawful E own x (SName n) (fty f)).
           { intros ->. destruct (I1 eq_refl) as (TG & C1 & _). eapply law_name; eauto. apply C1; auto. }
           split; [split|]; auto; [intros Q; eexists; eauto|]. intros [t L]. inversion L; subst. apply I2; eauto.
        -- split; [split|]; try (intros Q; apply app_eq_nil in Q as [_ Q]; discriminate).
           intros [t L]. exfalso. inversion L; subst. assert (e1 = []) as -> by (apply I2; eauto). destruct (I1 eq_refl) as (TG & _).
           assert (r = ty_of x1) by (eapply target_unique; eauto). subst r. eapply F; eauto.
    + injection H as <- <-. split; [split|]; try (intros Q; apply app_eq_nil in Q as [_ Q]; discriminate).
      intros [t L]. exfalso. inversion L; subst. assert (e1 = []) as -> by (apply I2; eauto). destruct (I1 eq_refl) as (TG & _).
      assert (r = ty_of x1) by (eapply target_unique; eauto). subst r. match goal with h : scomp _ = Record_ |- _ => apply is_comp_iff in h; congruence end.
  - pose proof (DeRef_spec _ _ _ H) as [A B].
    assert (S : e = [] -> lawful E own x SArrow (ty_of x')).
    { intros Q. destruct (A Q) as (C & F & N & b & SB & ->). apply law_arrow; auto. }
    split; [split|]; auto; [intros Q; eexists; eauto|]. intros [t L]. inversion L; subst. auto.
  - assert (Q : (cls_of x <? Nconst) && negb (is_form (sform (T (ty_of x))) FProc) = false -> ~ exists t0, lawful E own x (SGuard t) t0).
    { intros Q [t0 L]. apply andb_false_iff in Q as [Q|Q].
      - apply Z.ltb_ge in Q. inversion L; subst; try lia; match goal with h : cls_of x = Nvarpar |- _ => rewrite h in Q; apply Q; reflexivity end.
      - apply negb_false_iff, is_form_iff in Q. inversion L; subst; try congruence.
        + assert (sform (T (ty_of x)) = FComp) by (apply (t_comp E TB); match goal with h : scomp (T (ty_of x)) = Record_ |- _ => rewrite h end; discriminate). congruence.
        + match goal with h : ty_of x = sysptrtyp E |- _ => rewrite h, (t_sysptr E TB) in Q end. discriminate. }
    destruct ((cls_of x <? Nconst) && negb (is_form (sform (T (ty_of x))) FProc)) eqn:QQ.
    + pose proof (Guard_ty _ _ _ _ _ H) as TY. unfold Guard in H. apply bind_inv2 in H as ([e0 node] & TT & H). injection H as HX <-.
      destruct (TypTest_spec rank RK _ _ _ _ _ _ TT RG) as [[S1 S2] _]. rewrite TY.
      split; [split|]; auto; [intros Z; eexists; eauto|]. intros [t0 L]. apply S2. inversion L; subst; auto.
    + injection H as <- <-. split; [split|]; try discriminate. intros L. destruct (Q eq_refl L).
Qed.

(** The analysis ends. *)
Lemma FindField_total : forall rank, ranked E rank -> forall fuel t n, scomp (T t) = Record_ -> (rank t < fuel)%nat -> exists r, FindField E own fuel (Some t) n = Ok r.
Proof.
  intros rank RK. induction fuel as [|k IH]; intros t n R L; [lia|]. cbn [FindField]. destruct (own t n); [eauto|].
  destruct (sbase (T t)) as [b|] eqn:B; [|destruct k; cbn; eauto]. apply IH; [eapply (t_rbase E TB); eauto|]. pose proof (proj1 RK _ _ R B). lia.
Qed.
Lemma walk_total : forall rank, ranked E rank -> forall fuel t g, scomp (T t) = Record_ -> (rank t < fuel)%nat -> exists r, walk E fuel (Some t) g = Ok r.
Proof.
  intros rank RK. induction fuel as [|k IH]; intros t g R L; [lia|]. cbn [walk]. destruct (Nat.eqb t g || Nat.eqb t (undftyp E)); [eauto|].
  destruct (sbase (T t)) as [b|] eqn:B; [|destruct k; cbn; eauto]. apply IH; [eapply (t_rbase E TB); eauto|]. pose proof (proj1 RK _ _ R B). lia.
Qed.
Lemma GTT_total : forall rank, ranked E rank -> forall fuel x t0 t1 g, scomp (T t0) = Record_ \/ t0 = undftyp E -> scomp (T t1) = Record_ -> (rank t0 < fuel)%nat -> (rank t1 < fuel)%nat ->
  exists r, GTT E fuel x t0 t1 g = Ok r.
Proof.
  intros rank RK fuel x t0 t1 g R0 R1 L0 L1. unfold GTT. assert (exists a, walk E fuel (Some t0) t1 = Ok a) as [a ->].
  { destruct R0 as [R0 | ->]; [eapply walk_total; eauto|]. destruct fuel; [lia|]. cbn [walk]. rewrite Nat.eqb_refl, orb_true_r. eauto. }
  destruct (walk_total _ RK fuel t1 t0 R1 L1) as [b ->]. cbn [bind]. destruct (negb (is_some a t1)), (negb (Nat.eqb t0 t1)); eauto.
Qed.
Theorem C83_terminates : forall rank, ranked E rank -> forall fuel x s, record_guard E s -> (forall t, rank t < fuel)%nat -> exists r, select E own fuel x s = Ok r.
Proof.
  intros rank RK fuel x s RG L.
  assert (D : forall x, exists r, DeRef E x = Ok r).
  { intros z. unfold DeRef. destruct (cls_of z >=? Nconst); eauto. destruct (is_form (sform (T (ty_of z))) FPointer) eqn:F; eauto.
    apply is_form_iff in F. destruct (t_pbase E TB _ F) as [b ->]. cbn. eauto. }
  assert (I : exists r, implied E x = Ok r) by (unfold implied; destruct (is_form _ _); eauto).
  destruct I as [[x1 e1] I]. destruct s as [y se|n| |t]; cbn [select]; auto.
  - rewrite I. cbn [bind]. unfold Index. destruct (is_comp (scomp (T (ty_of x1))) Array) eqn:A.
    + apply is_comp_iff in A. destruct (t_abase E TB _ (or_introl A)) as [b ->]. cbn. eauto.
    + destruct (is_comp (scomp (T (ty_of x1))) DynArr) eqn:A'; [|cbn; eauto].
      apply is_comp_iff in A'. destruct (t_abase E TB _ (or_intror A')) as [b ->]. cbn. eauto.
  - rewrite I. cbn [bind]. destruct (is_comp (scomp (T (ty_of x1))) Record_) eqn:R; eauto. apply is_comp_iff in R.
    destruct (FindField_total _ RK fuel _ n R (L _)) as [r ->]. cbn [bind]. destruct (Field E x1 r n). eauto.
  - destruct ((cls_of x <? Nconst) && negb (is_form (sform (T (ty_of x))) FProc)); eauto. unfold Guard.
    assert (exists r, TypTest E fuel x t true = Ok r) as [[e node] ->]; [|cbn; eauto]. unfold TypTest. destruct (cls_of x >=? Nconst); eauto.
    destruct (is_form (sform (T (ty_of x))) FPointer) eqn:F.
    + apply is_form_iff in F. destruct (t_pbase E TB _ F) as [b SB]. rewrite SB. cbn [deref bind].
      destruct (negb (is_comp (scomp (T b)) Record_) && negb (Nat.eqb (ty_of x) (sysptrtyp E))) eqn:Q; eauto.
      destruct (is_form (sform (T t)) FPointer) eqn:FT; eauto. apply is_form_iff in FT. destruct (t_pbase E TB _ FT) as [d SD]. rewrite SD. cbn [deref bind].
      apply (GTT_total _ RK); auto.
      * apply andb_false_iff in Q as [Q|Q]; apply negb_false_iff in Q; [apply is_comp_iff in Q; auto|]. apply Nat.eqb_eq in Q. rewrite Q, (t_sysptrb E TB) in SB. right. congruence.
      * eapply RG; eauto.
    + destruct (is_comp (scomp (T (ty_of x))) Record_ && (cls_of x =? Nvarpar) && is_comp (scomp (T t)) Record_) eqn:Q; eauto.
      apply andb_true_iff in Q as [Q Q3]. apply andb_true_iff in Q as [Q1 Q2]. apply is_comp_iff in Q1, Q3. apply (GTT_total _ RK); auto.
Qed.

(** ** The meaning *)
Variable isext : tid -> tid -> bool.
Hypothesis IE : forall a b, isext a b = true <-> extends E a b.
Variable M : mem.
Hypothesis MM : memory E own M.
Notation locty := (locty E own M).
Notation eval := (eval E isext M).
Notation TypeOf := (TypeOf E isext M).

(** What is known about the location of a designator: its type, and for records that the descriptor is the one of the type. *)
Definition good (x : des) (l : loc) (u : tid) : Prop :=
  locty l u /\
  (sform (T (ty_of x)) = FPointer -> sform (T u) = FPointer /\ forall o, ptr M l = Some o -> points E (ty_of x) (dyn M o)) /\
  (sform (T (ty_of x)) <> FPointer -> fits E u (ty_of x)) /\
  (scomp (T (ty_of x)) = Record_ -> TypeOf x = Ok u) /\
  (scomp (T (ty_of x)) = Record_ -> cls_of x = 0 \/ cls_of x = 2 \/ cls_of x = 4 -> u = ty_of x).
Definition sound (x : des) : Prop :=
  checked E M isext x -> match eval x with Ok l => exists u, good x l u | Trap _ => True | _ => False end.
Lemma exact_good : forall x l, locty l (ty_of x) -> (scomp (T (ty_of x)) = Record_ -> TypeOf x = Ok (ty_of x)) -> good x l (ty_of x).
Proof.
  intros x l L TY. unfold good. repeat split; auto.
  - intros o P. eapply (m_ptr E own M MM); eauto.
  - intros _. left; auto.
Qed.
Lemma var_sound : forall x, variable E own M x -> sound x.
Proof.
  intros x V. destruct x; cbn in V; try contradiction. destruct V as (C & u & L & F & N0 & N1). intros _. cbn [DesigModel.eval]. exists u. unfold good. cbn [ty_of cls_of].
  split; auto. split; [|split; auto].
  - intros P. assert (u = t).
    { destruct F as [F|[[F _]|F]]; auto; [apply form_record in F; contradiction|]. inversion F; subst. destruct (form_array t); auto. }
    subst u. split; auto. intros o Q. eapply (m_ptr E own M MM); eauto.
  - split.
    + intros R. cbn [DesigModel.TypeOf]. destruct C as [-> | ->].
      * rewrite N0; auto. 
      * rewrite N1; auto.
    + intros R K. destruct C as [-> | ->]; [auto|]. unfold Nvarpar in K. lia.
Qed.
Lemma extends_rec : forall u t, extends E u t -> scomp (T t) = Record_ -> scomp (T u) = Record_.
Proof. intros u t H. destruct H; auto. Qed.
Lemma deref_sound : forall x x', sound x -> DeRef E x = Ok (x', []) -> sound x'.
Proof.
  intros x x' SX H. destruct (DeRef_spec _ _ _ H) as [A _]. destruct (A eq_refl) as (_ & F & N & b & SB & ->). clear A H.
  intros C. cbn [checked] in C. specialize (SX C). cbn [DesigModel.eval]. destruct (eval x) as [l| | |] eqn:EV; cbn [bind]; auto.
  destruct SX as (u & L & P & _). destruct (P F) as [_ PP]. destruct (ptr M l) as [o|] eqn:PL; auto.
  specialize (PP _ eq_refl). destruct PP as [PP|(b' & SB' & PP)]; [contradiction|]. rewrite SB in SB'. inversion SB'; subst b'.
  exists (dyn M o). assert (TY : TypeOf (DDeref x b) = Ok (dyn M o)) by (cbn [DesigModel.TypeOf]; rewrite EV; cbn [bind]; rewrite PL; auto).
  destruct PP as [[R X]|[R DB]].
  - unfold good. cbn [ty_of cls_of]. repeat split; auto; try (intros; lia).
    + constructor.
    + apply form_record in R. contradiction.
    + apply form_record in R. contradiction.
    + intros _. right; left. auto.
  - rewrite DB. apply (exact_good (DDeref x b)); cbn [ty_of]; [rewrite <- DB; constructor|contradiction].
Qed.
Lemma opens_open : forall u t, opens E u t -> scomp (T t) = DynArr.
Proof. intros u t H. inversion H; auto. Qed.
Lemma index_sound : forall x y se x', sound x -> Index E x y se = Ok (x', []) -> sound x'.
Proof.
  intros x y se x' SX H. apply Index_spec in H as (b & -> & BB & H). destruct (proj1 H eq_refl) as (_ & A & B & V & N & K). clear H BB.
  intros (C & NEG & EMP). specialize (SX C). cbn [DesigModel.eval]. destruct (eval x) as [l| | |] eqn:EV; cbn [bind]; auto.
  destruct SX as (u & L & _ & F & _). specialize (F (form_array _ A)).
  set (dynarr := is_comp (scomp (T (ty_of x))) DynArr). set (n := if dynarr then mlen M l else sn (T (ty_of x))).
  assert (CI : match check_index y se dynarr n with Ok i => 0 <= i < n | Trap _ => True | _ => False end).
  { unfold check_index. pose proof (const_iff y) as CQ. destruct (is_const y) eqn:QC; cbn [andb].
    - assert (KC : ocl y = Nconst) by (apply CQ; auto). destruct (K KC) as [K1 K2]. unfold n, dynarr. destruct A as [A|A]; rewrite A; cbn [is_comp negb orb].
      + rewrite orb_true_r. split; auto.
      + rewrite orb_false_r. destruct (oiv y =? 0) eqn:Q0.
        * apply Z.eqb_eq in Q0. specialize (EMP KC Q0 A _ eq_refl). lia.
        * destruct se.
          -- destruct ((0 <=? oiv y) && (oiv y <? mlen M l)) eqn:Q; auto. apply andb_true_iff in Q as [Q1 Q2]. apply Z.leb_le in Q1. apply Z.ltb_lt in Q2. lia.
          -- destruct (oiv y <? mlen M l) eqn:Q; auto. apply Z.ltb_lt in Q. lia.
    - destruct se.
      + destruct ((0 <=? oiv y) && (oiv y <? n)) eqn:Q; auto. apply andb_true_iff in Q as [Q1 Q2]. apply Z.leb_le in Q1. apply Z.ltb_lt in Q2. lia.
      + destruct (oiv y <? n) eqn:Q; auto. apply Z.ltb_lt in Q. destruct NEG as [NEG|NEG]; [discriminate|lia]. }
  destruct (check_index y se dynarr n) as [i| | |]; cbn [bind]; auto. unfold n, dynarr in CI.
  assert (EX : forall bu, sbase (T u) = Some bu -> scomp (T u) = Array \/ scomp (T u) = DynArr -> (scomp (T u) = Array -> i < sn (T u)) -> (scomp (T u) = DynArr -> i < mlen M l) ->
    locty (sub l (PElem i)) bu).
  { intros bu SU [CU|CU] L1 L2; [eapply lt_elem|eapply lt_open]; eauto; split; try lia; auto. }
  destruct F as [->|[[F _]|F]].
  - exists b. apply (exact_good (DIndex x y se b (ro_of x))); cbn [ty_of]; auto. apply EX; auto.
    + intros Q. rewrite Q in CI. cbn [is_comp] in CI. lia.
    + intros Q. rewrite Q in CI. cbn [is_comp] in CI. lia.
  - destruct A as [A|A]; rewrite A in F; discriminate.
  - inversion F as [u0 t0 a b0 F1 F2 F3 F4 F5]; subst. rewrite B in F4. inversion F4; subst b0. rewrite F1 in CI. cbn [is_comp] in CI.
    assert (LE : locty (sub l (PElem i)) a).
    { apply EX; auto; intros Q; [|lia]. rewrite (m_len E own M MM l u L Q) in CI. lia. }
    destruct F5 as [->|F5].
    + exists b. apply (exact_good (DIndex x y se b (ro_of x))); cbn [ty_of]; auto.
    + exists a. pose proof (opens_open _ _ F5) as OD. assert (NP : sform (T b) <> FPointer) by (apply form_array; auto).
      unfold good. cbn [ty_of]. repeat split; auto; try contradiction; try (rewrite OD; discriminate). intros _. right; right; auto.
Qed.
Lemma field_sound : forall x o f n, sound x -> scomp (T (ty_of x)) = Record_ -> field_of E own (ty_of x) n o f -> forall r, sound (DField x o n (fty f) r).
Proof.
  intros x o f n SX R F r C. cbn [checked] in C. specialize (SX C). cbn [DesigModel.eval]. destruct (eval x) as [l| | |] eqn:EV; cbn [bind]; auto.
  destruct SX as (u & L & _ & G & _). specialize (G (form_record _ R)). destruct (field_extends _ _ _ _ F R) as [X O].
  assert (UX : extends E u (ty_of x)).
  { destruct G as [->|[[_ G]|G]]; [constructor|auto|]. apply opens_open in G. rewrite R in G. discriminate. }
  exists (fty f). apply (exact_good (DField x o n (fty f) r)); cbn [ty_of]; auto.
  eapply lt_field; eauto; [eapply extends_rec; eauto|]. eapply extends_trans; eauto.
Qed.
Lemma retype_checked : forall x t, checked E M isext (retype x t) <-> checked E M isext x.
Proof. intros x t. destruct x; cbn [retype checked]; tauto. Qed.
Lemma cls1 : forall x, cls_of x = Nvarpar -> exists v t r, x = DVar Nvarpar v t r.
Proof. intros x H. destruct x; cbn in H; try discriminate. subst. eauto. Qed.
Lemma guard_sound : forall rank, ranked E rank -> forall fuel x t x', sound x -> Guard E fuel x t = Ok (x', []) -> record_guard E (SGuard t) -> ty_of x <> sysptrtyp E -> sound x'.
Proof.
  intros rank RK fuel x t x' SX H RG NS. unfold Guard in H. apply bind_inv2 in H as ([e node] & TT & H). injection H as HX ->.
  destruct (TypTest_spec rank RK _ _ _ _ _ _ TT RG) as [_ S2]. destruct (S2 eq_refl NS) as [(F & FT & b & d & SB & SD & RB & RD & X & N & _)|(CV & R & RT & X & N & K)].
  - destruct node; subst x'.
    + intros C. cbn [checked] in C. specialize (SX C). cbn [DesigModel.eval]. destruct (eval x) as [l| | |] eqn:EV; cbn [bind]; auto.
      rewrite FT. change (is_form FPointer FPointer) with true. cbv iota. destruct (ptr M l) as [o|] eqn:PL; auto. rewrite SD. cbn [deref bind]. destruct (isext (dyn M o) d) eqn:Q; auto.
      apply IE in Q. destruct SX as (u & L & P & _). destruct (P F) as [PU _]. exists u. unfold good. cbn [ty_of].
      assert (RX : scomp (T t) <> Record_) by (intros Z; apply form_record in Z; contradiction).
      repeat split; auto; try contradiction. intros o' PL'. rewrite PL in PL'. inversion PL'; subst o'. right. exists d. auto.
    + specialize (N eq_refl). subst d. intros C. apply retype_checked in C. specialize (SX C).
      assert (EV : eval (retype x t) = eval x).
      { destruct x; cbn [retype]; auto. cbn [DesigModel.eval]. cbn [ty_of] in F, SB. rewrite F, FT, SB, SD. auto. }
      rewrite EV. destruct (eval x) as [l| | |]; auto. destruct SX as (u & L & P & _). destruct (P F) as [PU PP]. exists u.
      assert (RX : scomp (T t) <> Record_) by (intros Z; apply form_record in Z; contradiction).
      unfold good. rewrite retype_ty. repeat split; auto; try contradiction. intros o PO. destruct (PP _ PO) as [Z|(b' & SB' & Z)]; [contradiction|].
      right. exists b'. rewrite SB in SB'. inversion SB'; subst b'. auto.
  - destruct (cls1 _ CV) as (v & t0 & r & ->). cbn [ty_of] in *. destruct node; subst x'.
    + intros C. cbn [checked] in C. specialize (SX C). cbn [DesigModel.eval] in *. cbn [bind]. destruct SX as (u & L & P & G & TY & _).
      cbn [ty_of] in *. specialize (TY R). cbn [DesigModel.TypeOf] in TY. injection TY as TY. pose proof (form_record _ RT) as NT.
      destruct (is_form (sform (T t)) FPointer) eqn:Q; [apply is_form_iff in Q; contradiction|]. destruct (isext (tag M v) t) eqn:Q2; auto.
      apply IE in Q2. exists u. unfold good. cbn [ty_of cls_of]. repeat split; auto; try contradiction; try lia.
      * intros _. right; left. rewrite <- TY. auto.
      * intros _. cbn [DesigModel.TypeOf]. rewrite Z.eqb_refl. congruence.
    + rewrite (N eq_refl). exact SX.
Qed.
Lemma select_sound : forall rank, ranked E rank -> forall fuel x s x', sound x -> select E own fuel x s = Ok (x', []) -> record_guard E s ->
  ((exists t, s = SGuard t) -> ty_of x <> sysptrtyp E) -> sound x'.
Proof.
  intros rank RK fuel x s x' SX H RG NS.
  assert (IMP : forall x1 e1, implied E x = Ok (x1, e1) -> e1 = [] -> sound x1).
  { intros x1 e1 I ->. destruct (implied_spec _ _ _ I) as [I1 _]. destruct (I1 eq_refl) as (_ & _ & [[_ ->]|[_ D]]); auto. eapply deref_sound; eauto. }
  destruct s as [y se|n| |t]; cbn [select] in H.
  - apply bind_inv2 in H as ([x1 e1] & I & H). apply bind_inv2 in H as ([x2 e2] & X & H). injection H as <- Q. apply app_eq_nil in Q as [Q1 Q2]. subst.
    exact (index_sound _ _ _ _ (IMP _ _ I eq_refl) X).
  - apply bind_inv2 in H as ([x1 e1] & I & H). destruct (is_comp (scomp (T (ty_of x1))) Record_) eqn:R.
    + apply is_comp_iff in R. apply bind_inv2 in H as (f & F & H). apply FindField_spec in F. unfold Field in H.
      destruct f as [[c f]|]; injection H as <- Q; apply app_eq_nil in Q as [Q1 Q2].
      * apply field_sound; eauto.
      * apply app_eq_nil in Q2 as [_ Q2]. discriminate.
    + injection H as _ Q. apply app_eq_nil in Q as [_ Q]. discriminate.
  - eapply deref_sound; eauto.
  - destruct ((cls_of x <? Nconst) && negb (is_form (sform (T (ty_of x))) FProc)); [|discriminate]. eapply guard_sound; eauto.
Qed.
Lemma built_sound : forall rank, ranked E rank -> forall x0 x, variable E own M x0 -> built E own x0 x -> sound x.
Proof. intros rank RK x0 x V B. induction B; [apply var_sound; auto|]. eapply select_sound; eauto. Qed.

(** An accepted designator stops the program or denotes an existing location that may be used with its type, whatever the lengths of arrays, the
    pointers and the dynamic types are; here indices are not negative, and the constant 0 is not an index of an empty open array. *)
Theorem C83_safe_partial : forall rank, ranked E rank -> forall x0 x, variable E own M x0 -> built E own x0 x -> checked E M isext x ->
  (exists c, eval x = Trap c) \/ exists l, eval x = Ok l /\ denotes E own M x l.
Proof.
  intros rank RK x0 x V B C. pose proof (built_sound rank RK x0 x V B C) as S. destruct (eval x) as [l|c| |]; try contradiction; eauto.
  right. exists l. split; auto. destruct S as (u & L & P & F & _). exists u. auto.
Qed.
(** The type descriptor that is passed with a record is the one of its dynamic type. *)
Theorem C83_tag : forall rank, ranked E rank -> forall x0 x, variable E own M x0 -> built E own x0 x -> checked E M isext x -> scomp (T (ty_of x)) = Record_ ->
  forall l, eval x = Ok l -> exists u, locty l u /\ TypeOf x = Ok u /\ extends E u (ty_of x).
Proof.
  intros rank RK x0 x V B C R l EV. pose proof (built_sound rank RK x0 x V B C) as S. rewrite EV in S. destruct S as (u & L & P & F & TY & _).
  exists u. repeat split; auto. destruct (F (form_record _ R)) as [->|[[_ X]|X]]; [constructor|auto|]. apply opens_open in X. rewrite R in X. discriminate.
Qed.
(** The test of a variable for a type: for pointers that are not NIL, and for records, it says whether the dynamic type is an extension. *)
Theorem C83_is : forall rank, ranked E rank -> forall x0 x fuel t y, variable E own M x0 -> built E own x0 x -> checked E M isext x -> ty_of x <> sysptrtyp E ->
  record_guard E (SGuard t) -> Is E fuel x t = Ok (y, []) ->
  (exists c, eval x = Trap c) \/ exists l u, eval x = Ok l /\ locty l u /\
    (sform (T (ty_of x)) = FPointer -> forall d, sbase (T t) = Some d ->
       match ptr M l with Some o => exists b, eval_test E isext M y = Ok b /\ (b = true <-> extends E (dyn M o) d) | None => True end) /\
    (scomp (T (ty_of x)) = Record_ -> exists b, eval_test E isext M y = Ok b /\ (b = true <-> extends E u t)).
Proof.
  intros rank RK x0 x fuel t y V B C NS RG H. pose proof (built_sound rank RK x0 x V B C) as S. destruct (eval x) as [l|c| |] eqn:EV; try contradiction; [|eauto].
  right. destruct S as (u & L & P & F & TY & EX). exists l, u. split; auto. split; auto. unfold Is in H. apply bind_inv2 in H as ([e node] & TT & H). injection H as HY ->.
  destruct (TypTest_spec rank RK _ _ _ _ _ _ TT RG) as [_ S2]. destruct (S2 eq_refl NS) as [(FP & FT & b & d & SB & SD & RB & RD & X & N & _)|(CV & R & RT & X & N & K)].
  - split; [|intros R; apply form_record in R; contradiction]. intros _ d' SD'. rewrite SD in SD'. inversion SD'; subst d'.
    destruct (ptr M l) as [o|] eqn:PL; auto. destruct (P FP) as [_ PP]. specialize (PP _ eq_refl). destruct PP as [PP|(b' & SB' & PP)]; [contradiction|].
    rewrite SB in SB'. inversion SB'; subst b'. destruct PP as [[_ PP]|[PP _]]; [|contradiction]. destruct node; subst y; cbn [eval_test].
    + rewrite FT. change (is_form FPointer FPointer) with true. cbv iota. rewrite EV. cbn [bind]. rewrite PL, SD. cbn [deref bind]. eexists. split; eauto.
    + exists true. split; auto. rewrite <- (N eq_refl). tauto.
  - split; [intros FP; apply form_record in R; contradiction|]. intros _. destruct (cls1 _ CV) as (v & t0 & r & ->). cbn [ty_of] in *.
    specialize (TY R). cbn [DesigModel.TypeOf] in TY. injection TY as TY. destruct node; subst y; cbn [eval_test].
    + destruct (is_form (sform (T t)) FPointer) eqn:Q; [apply is_form_iff in Q; apply form_record in RT; contradiction|]. exists (isext (tag M v) t). split; auto. rewrite IE, TY. tauto.
    + exists true. split; auto. rewrite (N eq_refl). split; auto. intros _. destruct (F (form_record _ R)) as [->|[[_ Z]|Z]]; [constructor|auto|].
      apply opens_open in Z. cbn [ty_of] in Z. rewrite R in Z. discriminate.
Qed.

(** A designator is marked read-only exactly if the variable is and no pointer is followed, or a field exported read-only lies on the way after the
    last pointer. *)
Lemma reached_sub : forall v x x' l p ps, follows x' = follows x -> reached M v x l ps -> reached M v x' (sub l p) (ps ++ [p]).
Proof. intros v x x' l p ps F R. unfold reached in *. rewrite F. destruct (follows x); cbn [sub root path]; [subst; auto|]. destruct R as [A B]. split; auto. rewrite B, app_assoc. auto. Qed.
Definition marked (v : nat) (r : bool) (x : des) : Prop := forall l, eval x = Ok l ->
  exists ps, reached M v x l ps /\ (ro_of x = true <-> (follows x = false /\ r = true) \/ Exists (ro_step own) ps).
Lemma deref_marked : forall v r x b, marked v r (DDeref x b).
Proof.
  intros v r x b l H. cbn [DesigModel.eval] in H. apply bind_inv2 in H as (l0 & _ & H). destruct (ptr M l0); inversion H; subst.
  exists []. split; [reflexivity|]. cbn. split; [discriminate|]. intros [[Q _]|Q]; [discriminate|inversion Q].
Qed.
Lemma index_marked : forall v r x y se t, marked v r x -> marked v r (DIndex x y se t (ro_of x)).
Proof.
  intros v r x y se t MX l H. cbn [DesigModel.eval] in H. apply bind_inv2 in H as (l0 & EV & H). apply bind_inv2 in H as (i & _ & H). inversion H; subst.
  destruct (MX _ EV) as (ps & R & Q). exists (ps ++ [PElem i]). split; [eapply reached_sub; eauto; reflexivity|]. cbn [ro_of follows]. rewrite Q, Exists_app.
  split; [tauto|]. intros [Z|[Z|Z]]; auto. inversion Z as [? ? Z1|? ? Z1]; [destruct Z1|inversion Z1].
Qed.
Lemma field_marked : forall v r x o f n, marked v r x -> own o n = Some f -> marked v r (DField x o n (fty f) (ro_of x || frd f)).
Proof.
  intros v r x o f n MX O l H. cbn [DesigModel.eval] in H. apply bind_inv2 in H as (l0 & EV & H). inversion H; subst.
  destruct (MX _ EV) as (ps & R & Q). exists (ps ++ [PField o n]). split; [eapply reached_sub; eauto; reflexivity|]. cbn [ro_of follows]. rewrite orb_true_iff, Q, Exists_app.
  assert (Z : Exists (ro_step own) [PField o n] <-> frd f = true).
  { split; [intros Z; inversion Z as [? ? Z1|? ? Z1]; [|inversion Z1]; destruct Z1 as (f' & Z1 & Z2); congruence|]. intros Z. constructor. exists f. auto. }
  tauto.
Qed.
Lemma field_own : forall t n c f, field_of E own t n c f -> own c n = Some f.
Proof. intros t n c f H. induction H; auto. Qed.
Theorem C83_readonly : forall rank, ranked E rank -> forall c v t r x, built E own (DVar c v t r) x -> forall l, eval x = Ok l ->
  exists ps, reached M v x l ps /\ (ro_of x = true <-> (follows x = false /\ r = true) \/ Exists (ro_step own) ps).
Proof.
  intros rank RK c v t r x B. change (marked v r x). induction B as [|fuel x s x' B IH H RG NS].
  - intros l H. cbn in H. inversion H; subst. exists []. split; [split; [auto|rewrite app_nil_r; auto]|]. cbn. split; [auto|]. intros [[_ Q]|Q]; auto. inversion Q.
  - assert (IMP : forall x1 e1, implied E x = Ok (x1, e1) -> e1 = [] -> marked v r x1).
    { intros x1 e1 I ->. destruct (implied_spec _ _ _ I) as [I1 _]. destruct (I1 eq_refl) as (_ & _ & [[_ ->]|[_ D]]); auto.
      destruct (proj1 (DeRef_spec _ _ _ D) eq_refl) as (_ & _ & _ & b & _ & ->). apply deref_marked. }
    destruct s as [y se|n| |t']; cbn [select] in H.
    + apply bind_inv2 in H as ([x1 e1] & I & H). apply bind_inv2 in H as ([x2 e2] & X & H). injection H as <- Q. apply app_eq_nil in Q as [Q1 Q2]. subst.
      apply Index_spec in X as (b & -> & _). apply index_marked. eapply IMP; eauto.
    + apply bind_inv2 in H as ([x1 e1] & I & H). destruct (is_comp (scomp (T (ty_of x1))) Record_) eqn:R.
      * apply bind_inv2 in H as (f & F & H). apply FindField_spec in F. unfold Field in H.
        destruct f as [[c' f]|]; injection H as <- Q; apply app_eq_nil in Q as [Q1 Q2].
        -- apply field_marked; eauto using field_own.
        -- apply app_eq_nil in Q2 as [_ Q2]. discriminate.
      * injection H as _ Q. apply app_eq_nil in Q as [_ Q]. discriminate.
    + destruct (proj1 (DeRef_spec _ _ _ H) eq_refl) as (_ & _ & _ & b & _ & ->). apply deref_marked.
    + destruct ((cls_of x <? Nconst) && negb (is_form (sform (T (ty_of x))) FProc)); [|discriminate].
      unfold Guard in H. apply bind_inv2 in H as ([e node] & TT & H). injection H as HX ->. specialize (NS (ex_intro _ _ eq_refl)).
      destruct node; subst x'.
      * intros l EV. cbn [DesigModel.eval] in EV. apply bind_inv2 in EV as (l0 & EV0 & EV).
        assert (l = l0).
        { destruct (is_form (sform (T t')) FPointer).
          - destruct (ptr M l0); [|discriminate]. apply bind_inv2 in EV as (b & _ & EV). destruct (isext _ b); inversion EV; auto.
          - destruct x; try discriminate. destruct (isext _ _); inversion EV; auto. }
        subst l0. exact (IH _ EV0).
      * destruct (TypTest_spec rank RK _ _ _ _ _ _ TT RG) as [_ S2]. destruct (S2 eq_refl NS) as [(F & FT & b & d & SB & SD & RB & RD & X & N & _)|(CV & R & RT & X & N & K)].
        -- assert (EV : eval (retype x t') = eval x).
           { destruct x; cbn [retype]; auto. cbn [DesigModel.eval]. cbn [ty_of] in F, SB. rewrite F, FT, SB, SD, (N eq_refl). auto. }
           intros l EL. rewrite EV in EL. specialize (IH _ EL). unfold reached in *. destruct x; exact IH.
        -- destruct (cls1 _ CV) as (v0 & t0 & r0 & ->). exact IH.
Qed.
End WithTable.

(** Types of the demonstration with an array of records, an open array of integers, and pointers to them; records 11 and 12 have fields. *)
Definition ddemo : env :=
  {| undftyp := 0; sysptrtyp := 1; chartyp := 2; bytetyp := 3; stringtyp := 4;
     str := fun t => match t with
       | 19 => compty Array 3 (Some 11) [] | 20 => ptrto 19 | 21 => compty DynArr 0 (Some 8) [] | 22 => ptrto 21
       | _ => str (demo false) t end%nat |}.
Definition downs (t : tid) (n : name) : option field :=
  match t with
  | 11%nat => if n =? 1 then Some (mkf 8 false) else if n =? 2 then Some (mkf 15 true) else None
  | 12%nat => if n =? 3 then Some (mkf 14 false) else None
  | _ => None
  end.
Lemma ddemo_table : table ddemo.
Proof.
  assert (R : forall t, (t = 19 \/ t = 20 \/ t = 21 \/ t = 22)%nat \/ str ddemo t = str (demo false) t).
  { intros t. do 23 (destruct t as [|t]; [auto 8|]). right. reflexivity. }
  pose proof (demo_table false) as TB. destruct TB. constructor; try reflexivity.
  all: intros t; specialize (R t); destruct R as [[-> |[-> |[-> | ->]]]|R]; try (cbn; intuition (try discriminate; try lia; try congruence; eauto); fail); rewrite ?R; auto.
  all: cbn; eauto; try (intros; eauto; fail).
  intros b C B. specialize (t_rbase t b C B). do 23 (destruct b as [|b]; [try exact t_rbase; try discriminate t_rbase|]). discriminate t_rbase.
Qed.
Definition drank (t : tid) : nat := match t with 21%nat => 1%nat | _ => demo_rank t end.
Lemma ddemo_ranked : ranked ddemo drank.
Proof.
  unfold ranked; conjs; intros t b; do 23 (destruct t as [|t]; [cbn; intros A B; try discriminate; try (inversion B; subst; cbn; lia)|]); try discriminate.
  all: destruct B as [<-|[]]; cbn; lia.
Qed.
(** A guard of a pointer to a record with the type of a pointer to an array of such records is accepted: the walk from the named type follows the
    element type of the array. *)
Theorem C83_guard_refuted : ~ (forall E own rank, table E -> ranked E rank -> forall fuel x s x' e, select E own fuel x s = Ok (x', e) ->
  (e = [] <-> exists t, lawful E own x s t)).
Proof.
  intros H. specialize (H ddemo downs drank ddemo_table ddemo_ranked 5%nat (DVar 0 0 13 false) (SGuard 20) (DGuard (DVar 0 0 13 false) 20 false) [] eq_refl).
  destruct (proj1 H eq_refl) as [t L]. inversion L; subst; cbn in *; try discriminate.
  match goal with h : Some 19%nat = Some d |- _ => inversion h; subst end. discriminate.
Qed.

(** A memory: a pointer to a record of the extended type, whose own pointer points to itself; a pointer to an open array without elements; an
    array of characters. *)
Definition dmem : mem :=
  {| vloc := fun v => mkl v [];
     dyn := fun o => match o with 0 => 13 | 1 => 12 | 2 => 21 | 3 => 22 | 5 => 15 | _ => 8 end%nat;
     ptr := fun l => match l with
              | mkl 0 [] => Some 1%nat | mkl 3 [] => Some 2%nat
              | mkl 1 [PField 12 n] => if n =? 3 then Some 1%nat else None
              | _ => None end;
     mlen := fun l => if Nat.eqb (root l) 2 then 0 else 4;
     tag := fun _ => 0%nat |}.
Definition disext (a b : tid) : bool := Nat.eqb a b || (Nat.eqb a 12 && Nat.eqb b 11).
Lemma disext_iff : forall a b, disext a b = true <-> extends ddemo a b.
Proof.
  intros a b. unfold disext. rewrite orb_true_iff, andb_true_iff, !Nat.eqb_eq. split.
  - intros [->|[-> ->]]; [constructor|]. eapply ext_step; [reflexivity|reflexivity|constructor].
  - intros H. induction H as [|d c b R B H IH]; auto.
    do 23 (destruct d as [|d]; [cbn in R, B; try discriminate; inversion B; subst; destruct IH as [<-|[IH _]]; auto; discriminate|]). discriminate.
Qed.
Lemma sub_eq : forall l p o q, sub l p = mkl o [q] -> l = mkl o [] /\ p = q.
Proof. intros [r pa] p o q H. unfold sub in H. cbn in H. inversion H as [[A B]]. destruct pa as [|a [|b pa]]; inversion B; subst; auto. Qed.
Lemma sub_nil : forall l p o, sub l p = mkl o [] -> False.
Proof. intros [r pa] p o H. unfold sub in H. cbn in H. inversion H as [[A B]]. destruct pa; discriminate. Qed.
Lemma root_type : forall o t, locty ddemo downs dmem (mkl o []) t -> t = dyn dmem o.
Proof. intros o t H. remember (mkl o []) as l0 eqn:Q. destruct H; [congruence| | |]; destruct (sub_nil _ _ _ Q). Qed.
Lemma part_type : forall o q t, locty ddemo downs dmem (mkl o [q]) t ->
  match q with
  | PField c n => exists f, downs c n = Some f /\ t = fty f
  | PElem i => 0 <= i /\ (scomp (str ddemo (dyn dmem o)) = Array \/ i < mlen dmem (mkl o []))
  end.
Proof.
  intros o q t H. remember (mkl o [q]) as l0 eqn:Q. destruct H as [o'|l u c n f L R X O|l a b i L A B I|l a b i L A B I]; [discriminate| | |];
    apply sub_eq in Q as [-> <-]; apply root_type in L; subst; eauto; split; try lia; auto.
Qed.
Lemma dmem_memory : memory ddemo downs dmem.
Proof.
  constructor.
  - intros l t o L F P. destruct l as [[|[|[|[|r]]]] [|[c n|i] [|q pa]]]; cbn in P; try discriminate.
    + inversion P; subst. apply root_type in L. subst. right. exists 11%nat. split; auto. left. split; auto. apply disext_iff. reflexivity.
    + do 13 (destruct c as [|c]; try discriminate). destruct (n =? 3) eqn:N; inversion P; subst. apply Z.eqb_eq in N. subst n.
      apply part_type in L as (f & O & ->). cbn in O. inversion O; subst. right. exists 12%nat. split; auto. left. split; auto. constructor.
    + do 13 (destruct c as [|c]; try discriminate).
    + inversion P; subst. apply root_type in L. subst. right. exists 21%nat. split; auto. right. split; auto. discriminate.
  - intros l a L A. assert (K : forall l t, locty ddemo downs dmem l t ->
      (t <> 19 /\ t <> 20 /\ t <> 11 /\ (root l = 2 -> t <> 15))%nat).
    { clear. intros l t H. induction H as [o|l u c n f L IH R X O|l a b i L IH A B I|l a b i L IH A B I].
      - do 6 (destruct o as [|o]; [repeat split; cbn; discriminate|]). repeat split; cbn; discriminate.
      - assert (Q : u = 12%nat \/ u = 11%nat) by (do 23 (destruct u as [|u]; [cbn in R; try discriminate; auto|]); discriminate).
        assert (RT : root l <> 2%nat).
        { intros E2. revert L Q IH E2. clear. intros L Q IH E2. destruct Q; subst; [|tauto].
          assert (G : forall l t, locty ddemo downs dmem l t -> root l = 2%nat -> t = 21%nat \/ t = 8%nat).
          { clear. intros l t H. induction H as [o|l u c n f L IH R X O|l a b i L IH A B I|l a b i L IH A B I]; cbn [sub root]; intros Z.
            - cbn in Z. subst. auto.
            - destruct (IH Z) as [-> | ->]; discriminate.
            - destruct (IH Z) as [-> | ->]; discriminate.
            - destruct (IH Z) as [-> | ->]; [inversion B; auto|discriminate]. }
          destruct (G _ _ L E2) as [Z|Z]; discriminate Z. }
        cbn [sub root].
        assert (QC : c = 11%nat \/ c = 12%nat) by (do 13 (destruct c as [|c]; [try discriminate; auto|]); discriminate). destruct QC; subst c; cbn in O.
        + destruct (n =? 1); [inversion O; subst; repeat split; try discriminate; tauto|]. destruct (n =? 2); inversion O; subst; repeat split; try discriminate; tauto.
        + destruct (n =? 3); inversion O; subst; repeat split; try discriminate; tauto.
      - do 23 (destruct a as [|a]; [cbn in A, B; try discriminate; inversion B; subst; try tauto; repeat split; discriminate|]). discriminate.
      - do 23 (destruct a as [|a]; [cbn in A, B; try discriminate; inversion B; subst; try tauto; repeat split; discriminate|]). discriminate. }
    destruct (K _ _ L) as (K1 & K2 & _ & K4). cbn [mlen dmem]. destruct (Nat.eqb (root l) 2) eqn:Q; [apply Nat.eqb_eq in Q|];
    do 23 (destruct a as [|a]; [cbn in A; try discriminate; try tauto; try reflexivity; destruct (K4 Q eq_refl)|]); discriminate.
Qed.
(** The full claim is false: a negative index of a variable without side effects passes the check, and so does the constant 0 for an open array
    without elements. *)
Definition safe_claim (x0 : des) (ss : list sel) : Prop := forall E own isext M rank x, table E -> ranked E rank -> (forall a b, isext a b = true <-> extends E a b) ->
  memory E own M -> variable E own M x0 -> built E own x0 x -> selectors E own 5 x0 ss = Ok (x, []) ->
  (exists c, eval E isext M x = Trap c) \/ exists l, eval E isext M x = Ok l /\ denotes E own M x l.
Theorem C83_negative_refuted : ~ forall x0 ss, safe_claim x0 ss.
Proof.
  intros H. set (y := mko 1 9 (-1) false 0).
  assert (B : built ddemo downs (DVar 0 5 15 false) (DIndex (DVar 0 5 15 false) y false 2 false)).
  { eapply (b_sel ddemo downs _ 5%nat _ (SIndex y false)); [constructor|reflexivity|intros t b Q; discriminate|intros [t Q]; discriminate]. }
  assert (V : variable ddemo downs dmem (DVar 0 5 15 false)).
  { split; [left; reflexivity|]. exists 15%nat. split; [apply (lt_root ddemo downs dmem 5)|]. split; [left; auto|]. split; discriminate. }
  destruct (H _ [SIndex y false] ddemo downs disext dmem drank _ ddemo_table ddemo_ranked disext_iff dmem_memory V B eq_refl) as [[c Q]|(l & Q & D)]; [discriminate|].
  cbn in Q. inversion Q; subst. destruct D as (u & L & _).
  apply part_type in L as [L _]. cbn in L. lia.
Qed.
Theorem C83_empty_refuted : ~ forall x0 ss, (forall y se, In (SIndex y se) ss -> 0 <= oiv y) -> safe_claim x0 ss.
Proof.
  intros H. set (y := mko Nconst 8 0 false 0). set (x0 := DVar 0 3 22 false).
  assert (B : built ddemo downs x0 (DIndex (DDeref x0 21) y false 8 false)).
  { eapply (b_sel ddemo downs _ 5%nat _ (SIndex y false)); [constructor|reflexivity|intros t b Q; discriminate|intros [t Q]; discriminate]. }
  assert (V : variable ddemo downs dmem x0).
  { split; [left; reflexivity|]. exists 22%nat. split; [apply (lt_root ddemo downs dmem 3)|]. split; [left; auto|]. split; discriminate. }
  assert (NN : forall y' se, In (SIndex y' se) [SIndex y false] -> 0 <= oiv y').
  { intros y' se [Z|[]]. inversion Z; subst. cbn. lia. }
  destruct (H x0 _ NN ddemo downs disext dmem drank _ ddemo_table ddemo_ranked disext_iff dmem_memory V B eq_refl) as [[c Q]|(l & Q & D)]; [discriminate|].
  cbn in Q. inversion Q; subst. destruct D as (u & L & _).
  apply part_type in L as [_ [L|L]]; cbn in L; [discriminate|lia].
Qed.

(** p(PT).next.name[1] in the demonstration memory: accepted, read-only, and denotes element 1 of the field of the extended record; the guard with
    a pointer to the base type needs no node; p IS PT; errors. *)
Definition dix (i : Z) : sel := SIndex (mko 1 9 i false 0) false.
Definition dpath : list sel := [SGuard 14; SName 3; SName 2; dix 1].
Definition drun (ss : list sel) : list Z * res loc * bool :=
  match selectors ddemo downs 5 (DVar 0 0 13 false) ss with Ok (x, e) => (e, eval ddemo disext dmem x, ro_of x) | _ => ([-9], UB, false) end.
Lemma built_all : forall E own fuel ss x0 x x', built E own x0 x -> Forall (fun s => record_guard E s /\ forall t, s = SGuard t -> x = x0 /\ ss = s :: tl ss /\ ty_of x <> sysptrtyp E) (firstn 1 ss) ->
  Forall (fun s => forall t, s <> SGuard t) (skipn 1 ss) -> selectors E own fuel x ss = Ok (x', []) -> built E own x0 x'.
Proof.
  intros E own fuel ss. assert (G : forall ss x0 x x', built E own x0 x -> Forall (fun s => forall t, s <> SGuard t) ss -> selectors E own fuel x ss = Ok (x', []) -> built E own x0 x').
  { induction ss0 as [|s ss0 IH]; intros x0 x x' B F H; cbn in H; [inversion H; subst; auto|].
    apply bind_inv2 in H as ([x1 e1] & S & H). apply bind_inv2 in H as ([x2 e2] & S2 & H). injection H as <- Q. apply app_eq_nil in Q as [-> ->].
    inversion F as [|? ? F1 F2]; subst. apply (IH x0 x1); auto. eapply b_sel; eauto; [intros t b Q; destruct (F1 _ Q)|intros [t Q]; destruct (F1 _ Q)]. }
  intros x0 x x' B F1 F2 H. destruct ss as [|s ss]; cbn in H; [inversion H; subst; auto|]. cbn in F1, F2.
  apply bind_inv2 in H as ([x1 e1] & S & H). apply bind_inv2 in H as ([x2 e2] & S2 & H). injection H as <- Q. apply app_eq_nil in Q as [-> ->].
  inversion F1 as [|? ? [RG N] _]; subst. apply (G ss x0 x1); auto. eapply b_sel; eauto. intros [t ->]. destruct (N t eq_refl) as (_ & _ & N'). exact N'.
Qed.
Example C83_met :
  variable ddemo downs dmem (DVar 0 0 13 false) /\
  (exists x, selectors ddemo downs 5 (DVar 0 0 13 false) dpath = Ok (x, []) /\ built ddemo downs (DVar 0 0 13 false) x /\ checked ddemo dmem disext x) /\
  drun dpath = ([], Ok (mkl 1 [PField 11 2; PElem 1]), true) /\
  drun [SGuard 14; SName 3; SName 2; dix 4] = ([], Trap 2, true) /\
  drun [SName 1] = ([], Ok (mkl 1 [PField 11 1]), false) /\ drun [SArrow] = ([], Ok (mkl 1 []), false) /\
  (fst (fst (drun [SName 3])) = [83]) /\ (fst (fst (drun [dix 0])) = [82]) /\ fst (fst (drun [SGuard 8])) = [86] /\
  (exists x e, Is ddemo 5 (DVar 0 0 13 false) 14 = Ok (x, e) /\ e = [] /\ eval_test ddemo disext dmem x = Ok true).
Proof.
  split. { split; [left; reflexivity|]. exists 13%nat. split; [apply (lt_root ddemo downs dmem 0)|]. split; [left; auto|]. split; discriminate. }
  split.
  { destruct (selectors ddemo downs 5 (DVar 0 0 13 false) dpath) as [[x e]| | |] eqn:S; try discriminate. assert (e = []) as -> by (cbv in S; congruence).
    exists x. split; auto. split.
    - eapply built_all; [constructor| | |exact S].
      + constructor; [|constructor]. split; [intros t b Q F SB; inversion Q; subst; inversion SB; reflexivity|]. intros t Q. repeat split. discriminate.
      + repeat constructor; intros t Q; discriminate.
    - cbv in S. inversion S; subst. cbn. repeat split; try lia; try discriminate. }
  do 7 (split; [reflexivity|]). do 2 eexists. split; [reflexivity|]. split; reflexivity.
Qed.

Print Assumptions C83_exact_partial.
Print Assumptions C83_guard_refuted.
Print Assumptions C83_terminates.
Print Assumptions C83_safe_partial.
Print Assumptions C83_negative_refuted.
Print Assumptions C83_empty_refuted.
Print Assumptions C83_tag.
Print Assumptions C83_is.
Print Assumptions C83_readonly.
