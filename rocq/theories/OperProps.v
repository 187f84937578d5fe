(** C82: operators are applied exactly to the operand types that the language allows. *)
From Verif Require Import Base AsgModel AsgSpec AsgProps OperModel OperSpec.

Lemma bind_inv2 : forall A B (m : res A) (k : A -> res B) b, bind m k = Ok b -> exists a, m = Ok a /\ k a = Ok b.
Proof. intros A B [] k b H; try discriminate. eauto. Qed.

Section WithTable.
Variable E : env.
Variable P : predecl.
Notation T t := (str E t).
Variable lev : tid -> Z.
Variable foldtyp : binop -> opnd -> opnd -> tid.
Variable folderr : binop -> opnd -> opnd -> list Z.
Hypothesis TB : table E.
Hypothesis PD : predeclared E P.
Hypothesis LV : levels E lev.

(** ** The table *)
Lemma num_smallest : forall x y, numeric E x -> numeric E y -> exists r, smallest E x y r.
Proof.
  intros x y X Y. unfold smallest, includes, numeric, real_, int_, set_ in *.
  destruct X as [X|[X|X]], Y as [Y|[Y|Y]].
  - destruct (Z_le_gt_dec (ssize (T x)) (ssize (T y))); [exists y|exists x]; repeat split; auto; right; right; left; repeat split; auto; lia.
  - exists y. repeat split; auto; right; left; auto.
  - exists y. repeat split; auto; left; auto.
  - exists x. repeat split; auto; right; left; auto.
  - exists x. repeat split; auto; right; left; auto.
  - exists y. repeat split; auto; left; auto.
  - exists x. repeat split; auto; left; auto.
  - exists x. repeat split; auto; left; auto.
  - exists x. repeat split; auto; left; auto.
Qed.
Lemma set_smallest : forall x y, set_ E x -> set_ E y -> exists r, smallest E x y r.
Proof.
  intros x y X Y. destruct (Z_le_gt_dec (ssize (T x)) (ssize (T y))); [exists y|exists x]; repeat split; auto; right; right; right; repeat split; auto; lia.
Qed.
Lemma smallest_forms : forall x y r, smallest E x y r -> numeric E x /\ numeric E y \/ set_ E x /\ set_ E y.
Proof.
  intros x y r (_ & A & B). unfold includes, numeric, real_, int_, set_ in *.
  destruct A as [(_ & A1 & A2)|[(A1 & A2)|[(A1 & A2 & _)|(A1 & A2 & _)]]], B as [(_ & B1 & B2)|[(B1 & B2)|[(B1 & B2 & _)|(B1 & B2 & _)]]];
    try congruence; tauto.
Qed.
(** Operands that some operator accepts. *)
Definition related (x y : opnd) : Prop :=
  numeric E (oty x) /\ numeric E (oty y) \/ set_ E (oty x) /\ set_ E (oty y) \/
  sform (T (oty x)) = FBool /\ sform (T (oty y)) = FBool \/ sform (T (oty x)) = FChar /\ sform (T (oty y)) = FChar \/
  sform (T (oty x)) = FByte /\ sform (T (oty y)) = FByte \/ both_strings E x y \/ pointers E (oty x) (oty y) \/
  sform (T (oty x)) = FProc /\ oty x = oty y \/ (exists f, (f = FNil \/ f = FPointer \/ f = FProc) /\ nil_or E f (oty x) (oty y)).
Lemma comparable_related : forall x y, comparable E x y -> related x y.
Proof. intros x y H. unfold related. destruct H; tauto. Qed.
Lemma oper_related : forall op x y t, oper E P op x y t -> related x y.
Proof.
  intros op x y t H. destruct H.
  - apply smallest_forms in H1. unfold related. tauto.
  - apply smallest_forms in H1. unfold related. tauto.
  - left. unfold numeric. auto.
  - apply smallest_forms in H0. unfold related. tauto.
  - apply smallest_forms in H2. unfold related. tauto.
  - unfold related. tauto.
  - destruct H0; [apply comparable_related; auto| | | | | |].
    all: unfold related; eauto 12.
  - apply comparable_related; auto.
Qed.

(** ** Pointers *)
Lemma climb_ok : forall fuel p q, climb E fuel (Some p) q = Ok [] -> scomp (T p) = Record_ -> extends E p q.
Proof.
  induction fuel as [|k IH]; intros p q H R; cbn [climb] in H; destruct (Nat.eqb p q || Nat.eqb p (undftyp E)) eqn:Q; try discriminate.
  1,2: apply orb_true_iff in Q as [Q|Q]; apply Nat.eqb_eq in Q; subst; [constructor|rewrite (t_undfc E TB) in R; discriminate].
  destruct (sbase (T p)) as [b|] eqn:B; [|destruct k; discriminate].
  eapply ext_step; eauto. apply IH; auto. eapply (t_rbase E TB); eauto.
Qed.
Lemma climb_fails : forall fuel p q e, climb E fuel (Some p) q = Ok e -> scomp (T p) = Record_ -> e = [] /\ extends E p q \/ e = [100] /\ ~ extends E p q.
Proof.
  induction fuel as [|k IH]; intros p q e H R; cbn [climb] in H; destruct (Nat.eqb p q || Nat.eqb p (undftyp E)) eqn:Q; try discriminate.
  1,2: inversion H; subst; left; split; auto; apply orb_true_iff in Q as [Q|Q]; apply Nat.eqb_eq in Q; subst;
    [constructor|rewrite (t_undfc E TB) in R; discriminate].
  apply orb_false_iff in Q as [Q _]. apply Nat.eqb_neq in Q.
  destruct (sbase (T p)) as [b|] eqn:B.
  - destruct (IH _ _ _ H (t_rbase E TB _ _ R B)) as [[-> X]|[-> X]].
    + left. split; auto. eapply ext_step; eauto.
    + right. split; auto. intros Y. inversion Y; subst; [congruence|]. apply X. congruence.
  - right. split; [destruct k; inversion H; auto|]. intros Y. inversion Y; subst; congruence.
Qed.
Lemma extends_lev : forall d b, extends E d b -> lev b <= lev d.
Proof. intros d b H. induction H; [lia|]. rewrite (LV _ _ H H0). lia. Qed.
Lemma extends_same_lev : forall d b, extends E d b -> lev d <= lev b -> d = b.
Proof. intros d b H L. inversion H; subst; auto. pose proof (extends_lev _ _ H2). rewrite (LV _ _ H0 H1) in L. lia. Qed.
Lemma CheckPtr_ok : forall fuel x y e, CheckPtr E lev fuel x y = Ok e -> form_of E x = FPointer -> oty x <> oty y ->
  e = [] /\ (pointers E (oty x) (oty y) \/ form_of E y = FNil) \/ e = [100] /\ ~ pointers E (oty x) (oty y) /\ form_of E y <> FNil.
Proof.
  intros fuel x y e H FX NE. unfold CheckPtr in H. destruct (is_form (form_of E y) FPointer) eqn:FY.
  - apply is_form_iff in FY. apply bind_inv2 in H as (p & HP & H). apply bind_inv2 in H as (q & HQ & H).
    unfold deref in HP, HQ. unfold form_of in *. destruct (sbase (T (oty x))) as [p'|] eqn:BX; [|discriminate].
    destruct (sbase (T (oty y))) as [q'|] eqn:BY; [|discriminate]. inversion HP; inversion HQ; subst.
    assert (EX : forall (Q : Prop), (Q -> scomp (T p) = Record_ /\ scomp (T q) = Record_) -> (Q <-> extends E p q \/ extends E q p) ->
       (pointers E (oty x) (oty y) <-> scomp (T p) = Record_ /\ scomp (T q) = Record_ /\ (extends E p q \/ extends E q p))).
    { intros Q Q1 Q2. unfold pointers. split.
      - intros (_ & _ & [X|(p1 & q1 & A & B & C & D & F)]); [contradiction|]. assert (p1 = p) by congruence. assert (q1 = q) by congruence. subst. auto.
      - intros (A & B & C). repeat split; auto. right. exists p, q. auto. }
    destruct (is_comp (scomp (T p)) Record_ && is_comp (scomp (T q)) Record_) eqn:RR.
    + apply andb_true_iff in RR as [R1 R2]. apply is_comp_iff in R1. apply is_comp_iff in R2.
      assert (PX : pointers E (oty x) (oty y) <-> extends E p q \/ extends E q p).
      { unfold pointers. split.
        - intros (_ & _ & [X|(p1 & q1 & A & B & C & D & F)]); [contradiction|]. assert (p1 = p) by congruence. assert (q1 = q) by congruence. subst. auto.
        - intros C. repeat split; auto. right. exists p, q. auto. }
      destruct (lev p <? lev q) eqn:L.
      * apply Z.ltb_lt in L. destruct (climb_fails _ _ _ _ H R2) as [[-> X]|[-> X]].
        -- left. split; auto. left. apply PX. auto.
        -- right. split; auto. split; [|congruence]. rewrite PX. intros [Y|Y]; [|auto]. apply extends_lev in Y. lia.
      * apply Z.ltb_ge in L. destruct (climb_fails _ _ _ _ H R1) as [[-> X]|[-> X]].
        -- left. split; auto. left. apply PX. auto.
        -- right. split; auto. split; [|congruence]. rewrite PX. intros [Y|Y]; [auto|].
           apply extends_same_lev in Y; [|lia]. subst. apply X. constructor.
    + right. inversion H; subst. split; auto. split; [|congruence].
      intros (_ & _ & [X|(p1 & q1 & A & B & C & D & F)]); [contradiction|]. assert (p1 = p) by congruence. assert (q1 = q) by congruence. subst.
      apply is_comp_iff in C. apply is_comp_iff in D. rewrite C, D in RR. discriminate.
  - destruct (is_form (form_of E y) FNil) eqn:FN; cbn [negb] in H; inversion H; subst.
    + left. apply is_form_iff in FN. auto.
    + right. split; auto. split.
      * intros (_ & X & _). apply is_form_iff in X. unfold form_of in FY. congruence.
      * intros X. apply is_form_iff in X. congruence.
Qed.

(** ** Operands after conversion *)
(** [y'] is [y] with the type [t]: a constant remains one and is zero if it was. *)
Definition converted (y y' : opnd) (t : tid) : Prop :=
  oty y' = t /\ is_const y' = is_const y /\ oiv y' = oiv y /\
  (real_ E t -> is_const y = true -> orz y' = true <-> (int_ E (oty y) /\ oiv y = 0 \/ real_ E (oty y) /\ orz y = true)).
Lemma form_int_real : forall t, sform (T t) = FInt -> ~ real_ E t.
Proof. intros t H [X|X]; congruence. Qed.
Lemma Convert_converted : forall y t, numeric E (oty y) -> converted y (Convert E y t) t.
Proof.
  intros y t N. unfold converted, Convert. cbn [oty oiv orz ocl]. split; auto. split.
  { unfold is_const in *. cbn [ocl]. destruct (ocl y =? Nconst) eqn:Q; auto. }
  split; auto. intros RT K. unfold form_of.
  destruct (is_form (sform (T (oty y))) FInt) eqn:F; cbn [andb].
  - assert (in_real (sform (T t)) = true) as ->.
    { unfold in_real. destruct RT as [->| ->]; auto. }
    apply is_form_iff in F. rewrite Z.eqb_eq. split; [auto|]. intros [[_ Z]|[Z _]]; auto. destruct (form_int_real _ F Z).
  - assert (NI : sform (T (oty y)) <> FInt) by (intros X; apply is_form_iff in X; congruence).
    split; [|intros [[X _]|[_ X]]; auto; destruct (NI X)]. intros Z. right. split; auto.
    destruct N as [X|X]; auto. destruct (NI X).
Qed.
Lemma same_converted : forall y, numeric E (oty y) -> converted y y (oty y).
Proof.
  intros y N. split; auto. split; auto. split; auto. intros R _. split; [intros Z; right; auto|].
  intros [[X _]|[_ X]]; auto. destruct (form_int_real _ X R).
Qed.
Inductive matched (z y : opnd) : opnd -> opnd -> list Z -> Prop :=
  | m_same : oty z = oty y -> matched z y z y []
  | m_num z' y' t : numeric E (oty z) -> numeric E (oty y) -> smallest E (oty z) (oty y) t -> oty z' = t -> converted y y' t -> matched z y z' y' []
  | m_set z' y' t : set_ E (oty z) -> set_ E (oty y) -> smallest E (oty z) (oty y) t -> oty z' = t -> oty y' = t -> matched z y z' y' []
  | m_char : oty z <> oty y -> char_const E z -> matched z y (CharToString E z) y []
  | m_str : oty z <> oty y -> sform (T (oty z)) = FString -> matched z y z y []
  | m_comp : oty z <> oty y -> sform (T (oty z)) = FComp -> matched z y z y []
  | m_ptr : (sform (T (oty z)) = FPointer \/ sform (T (oty z)) = FNil \/ sform (T (oty z)) = FProc) ->
      pointers E (oty z) (oty y) \/ (exists f, (f = FNil \/ f = FPointer \/ f = FProc) /\ nil_or E f (oty z) (oty y)) -> matched z y z y []
  | m_not z' y' e : e <> [] -> ~ related z y -> matched z y z' y' e.
Ltac unrel := intuition (try congruence);
  repeat match goal with
  | H : exists f, _ /\ nil_or _ _ _ _ |- _ => destruct H as (? & ? & ?); unfold nil_or in *
  | H : exists f, (f = FNil \/ _) /\ _ |- _ => destruct H as (? & ? & ?)
  end; subst; intuition (subst; congruence).
Lemma match_types_spec : forall fuel z y z' y' e, operand E z -> operand E y ->
  match_types E lev fuel z y = Ok (z', y', e) -> matched z y z' y' e.
Proof.
  intros fuel z y z' y' e (Z1 & Z2 & Z3) (Y1 & Y2 & Y3) H. unfold match_types in H.
  destruct (Nat.eqb (oty z) (oty y)) eqn:Q.
  { apply Nat.eqb_eq in Q. inversion H; subst. apply m_same; auto. }
  apply Nat.eqb_neq in Q.
  assert (NU : forall f, (forall t u, sform (T t) = f -> sform (T u) = f -> t = u) -> sform (T (oty z)) = f -> sform (T (oty y)) <> f).
  { intros f U A B. apply Q. eauto. }
  assert (UB : forall t u, sform (T t) = FBool -> sform (T u) = FBool -> t = u) by (intros t u A B; apply (p_bool E P PD) in A, B; congruence).
  assert (UR : forall t u, sform (T t) = FReal -> sform (T u) = FReal -> t = u) by (intros t u A B; apply (p_real E P PD) in A, B; congruence).
  assert (UL : forall t u, sform (T t) = FLReal -> sform (T u) = FLReal -> t = u) by (intros t u A B; apply (p_lreal E P PD) in A, B; congruence).
  assert (UC : forall t u, sform (T t) = FChar -> sform (T u) = FChar -> t = u) by (intros t u A B; apply (p_char E P PD) in A, B; congruence).
  assert (UY : forall t u, sform (T t) = FByte -> sform (T u) = FByte -> t = u) by (intros t u A B; apply (p_byte E P PD) in A, B; congruence).
  assert (FC : forall t, scomp (T t) = Array \/ scomp (T t) = DynArr -> sform (T t) = FComp).
  { intros t C. apply (t_comp E TB). destruct C as [-> | ->]; discriminate. }
  unfold form_of in H. destruct (sform (T (oty z))) eqn:FZ.
  - congruence.
  - inversion H; subst. apply m_not; [discriminate|]. pose proof (NU _ UY eq_refl).
    intros R; unfold related, numeric, real_, int_, set_, both_strings, string_, char_const, pointers, nil_or in R.
    pose proof (FC (oty z')). rewrite FZ in *. unrel.
  - inversion H; subst. apply m_not; [discriminate|]. pose proof (NU _ UB eq_refl).
    intros R; unfold related, numeric, real_, int_, set_, both_strings, string_, char_const, pointers, nil_or in R.
    pose proof (FC (oty z')). rewrite FZ in *. unrel.
  - destruct (is_const z) eqn:C; inversion H; subst.
    + apply m_char; auto. split; auto. apply Z.eqb_eq; auto.
    + apply m_not; [discriminate|]. pose proof (NU _ UC eq_refl).
      intros R; unfold related, numeric, real_, int_, set_, both_strings, string_, char_const, pointers, nil_or in R.
      assert (ocl z' <> Nconst) by (apply Z.eqb_neq; auto).
      pose proof (FC (oty z')). rewrite FZ in *. unrel.
  - (* integers *)
    destruct (is_form (sform (T (oty y))) FInt) eqn:GI; cbn [andb orb] in H.
    + apply is_form_iff in GI. destruct (ssize (T (oty y)) <? ssize (T (oty z))) eqn:L; inversion H; subst.
      * apply Z.ltb_lt in L. apply m_num with (t := oty z'); auto; [left; auto|left; auto| |apply Convert_converted; left; auto].
        split; auto. split; right; right; left; repeat split; auto; lia.
      * apply Z.ltb_ge in L. apply m_num with (t := oty y'); auto; [left; auto|left; auto| |apply same_converted; left; auto].
        split; auto. split; right; right; left; repeat split; auto; lia.
    + destruct (in_real (sform (T (oty y)))) eqn:GR; inversion H; subst.
      * assert (RY : real_ E (oty y')).
        { unfold in_real in GR. apply orb_true_iff in GR as [X|X]; apply is_form_iff in X; [left|right]; auto. }
        apply m_num with (t := oty y'); auto; [left; auto|right; auto| |apply same_converted; right; auto].
        split; auto. unfold includes, numeric, int_, real_. destruct RY as [RY|RY]; tauto.
      * apply m_not; [discriminate|].
        assert (N1 : sform (T (oty y')) <> FInt) by (intros X; apply is_form_iff in X; congruence).
        assert (N2 : ~ real_ E (oty y')).
        { intros [X|X]; unfold in_real in GR; rewrite X in GR; discriminate. }
        intros R; unfold related, numeric, int_, set_, both_strings, string_, char_const, pointers, nil_or in R. unfold real_ in R, N2.
        pose proof (FC (oty z')). rewrite FZ in *. unrel.
  - (* REAL *)
    destruct (is_form (sform (T (oty y))) FInt) eqn:GI.
    + apply is_form_iff in GI. inversion H; subst. apply m_num with (t := oty z'); auto; [right; left; auto|left; auto| |apply Convert_converted; left; auto].
      split; auto. unfold includes, numeric, int_, real_. tauto.
    + destruct (in_real (sform (T (oty y)))) eqn:GR; inversion H; subst.
      * assert (RY : sform (T (oty y')) = FLReal).
        { unfold in_real in GR. apply orb_true_iff in GR as [X|X]; apply is_form_iff in X; auto. destruct (NU _ UR eq_refl X). }
        apply m_num with (t := oty y'); auto; [right; left; auto|right; right; auto| |apply same_converted; right; right; auto].
        split; auto. unfold includes, numeric, int_, real_. tauto.
      * apply m_not; [discriminate|].
        assert (N1 : sform (T (oty y')) <> FInt) by (intros X; apply is_form_iff in X; congruence).
        assert (N2 : ~ real_ E (oty y')).
        { intros [X|X]; unfold in_real in GR; rewrite X in GR; discriminate. }
        intros R; unfold related, numeric, int_, set_, both_strings, string_, char_const, pointers, nil_or in R. unfold real_ in R, N2.
        pose proof (FC (oty z')). rewrite FZ in *. unrel.
  - (* LONGREAL *)
    destruct (is_form (sform (T (oty y))) FInt || in_real (sform (T (oty y)))) eqn:GI; inversion H; subst.
    + assert (NY : numeric E (oty y)).
      { apply orb_true_iff in GI as [X|X]; [left; apply is_form_iff; auto|]. right.
        unfold in_real in X. apply orb_true_iff in X as [X|X]; apply is_form_iff in X; [left|right]; auto. }
      apply m_num with (t := oty z'); auto; [right; right; auto| |apply Convert_converted; auto].
      split; auto. unfold includes. unfold numeric, int_, real_ in *. tauto.
    + apply orb_false_iff in GI as [GI GR]. apply m_not; [discriminate|].
      assert (N1 : sform (T (oty y')) <> FInt) by (intros X; apply is_form_iff in X; congruence).
      assert (N2 : ~ real_ E (oty y')).
      { intros [X|X]; unfold in_real in GR; rewrite X in GR; discriminate. }
      intros R; unfold related, numeric, int_, set_, both_strings, string_, char_const, pointers, nil_or in R. unfold real_ in R, N2.
      pose proof (FC (oty z')). rewrite FZ in *. unrel.
  - (* SET *)
    destruct (is_form (sform (T (oty y))) FSet) eqn:GI; cbn [andb orb] in H.
    + apply is_form_iff in GI. destruct (ssize (T (oty y)) <? ssize (T (oty z))) eqn:L; inversion H; subst.
      * apply Z.ltb_lt in L. apply m_set with (t := oty z'); auto.
        split; auto. split; right; right; right; repeat split; auto; lia.
      * apply Z.ltb_ge in L. apply m_set with (t := oty y'); auto.
        split; auto. split; right; right; right; repeat split; auto; lia.
    + inversion H; subst. apply m_not; [discriminate|].
      assert (N1 : sform (T (oty y')) <> FSet) by (intros X; apply is_form_iff in X; congruence).
      intros R; unfold related, numeric, real_, int_, set_, both_strings, string_, char_const, pointers, nil_or in R.
      pose proof (FC (oty z')). rewrite FZ in *. unrel.
  - inversion H; subst. apply m_str; auto.
  - (* NIL *)
    destruct (is_form (sform (T (oty y))) FPointer || is_form (sform (T (oty y))) FProc) eqn:G; cbn [negb] in H; inversion H; subst.
    + apply m_ptr; auto. right. apply orb_true_iff in G as [G|G]; apply is_form_iff in G; unfold nil_or; [exists FPointer|exists FProc]; tauto.
    + apply orb_false_iff in G as [G1 G2]. apply m_not; [discriminate|].
      assert (N1 : sform (T (oty y')) <> FPointer) by (intros X; apply is_form_iff in X; congruence).
      assert (N2 : sform (T (oty y')) <> FProc) by (intros X; apply is_form_iff in X; congruence).
      pose proof (NU _ (p_nil E P PD) eq_refl).
      intros R; unfold related, numeric, real_, int_, set_, both_strings, string_, char_const, pointers, nil_or in R.
      pose proof (FC (oty z')). rewrite FZ in *. unrel.
  - (* no type *)
    inversion H; subst. apply m_not; [discriminate|].
    intros R; unfold related, numeric, real_, int_, set_, both_strings, string_, char_const, pointers, nil_or in R.
    pose proof (FC (oty z')). rewrite FZ in *. unrel.
  - (* pointers *)
    apply bind_inv2 in H as (e0 & CP & H). inversion H; subst.
    destruct (CheckPtr_ok _ _ _ _ CP FZ Q) as [[-> X]|(-> & X1 & X2)].
    + apply m_ptr; auto. destruct X as [X|X]; auto. right. exists FPointer. split; auto. right. auto.
    + apply m_not; [discriminate|]. unfold form_of in X2.
      intros R; unfold related, numeric, real_, int_, set_, both_strings, string_, char_const, nil_or in R.
      pose proof (FC (oty z')). rewrite FZ in *. unrel.
  - (* procedures *)
    destruct (is_form (sform (T (oty y))) FNil) eqn:G; cbn [negb] in H; inversion H; subst.
    + apply is_form_iff in G. apply m_ptr; auto. right. exists FProc. split; auto. right. auto.
    + apply m_not; [discriminate|].
      assert (N1 : sform (T (oty y')) <> FNil) by (intros X; apply is_form_iff in X; congruence).
      intros R; unfold related, numeric, real_, int_, set_, both_strings, string_, char_const, pointers, nil_or in R.
      pose proof (FC (oty z')). rewrite FZ in *. unrel.
  - destruct (is_comp (scomp (T (oty z))) Record_) eqn:R; inversion H; subst; [|apply m_comp; auto].
    apply is_comp_iff in R. apply m_not; [discriminate|].
    intros RR; unfold related, numeric, real_, int_, set_, both_strings, string_, char_const, pointers, nil_or in RR.
    rewrite FZ, R in *. unrel.
Qed.

Lemma array_comp : forall t, scomp (T t) = Array \/ scomp (T t) = DynArr -> sform (T t) = FComp.
Proof. intros t C. apply (t_comp E TB). destruct C as [-> | ->]; discriminate. Qed.
Lemma chararr_ok : forall x b, chararr E x = Ok b -> (b = true <-> string_ E x).
Proof.
  intros x b H. unfold chararr, form_of in H. unfold string_.
  destruct (is_form (sform (T (oty x))) FString) eqn:F.
  - apply is_form_iff in F. inversion H. tauto.
  - assert (NS : sform (T (oty x)) <> FString) by (intros X; apply is_form_iff in X; congruence).
    destruct (is_comp (scomp (T (oty x))) Array || is_comp (scomp (T (oty x))) DynArr) eqn:C.
    + assert (A : scomp (T (oty x)) = Array \/ scomp (T (oty x)) = DynArr) by (apply orb_true_iff in C as [C|C]; apply is_comp_iff in C; auto).
      apply bind_inv2 in H as (e & D & H). inversion H; subst. unfold deref in D. destruct (sbase (T (oty x))) as [e'|] eqn:B; inversion D; subst.
      rewrite is_form_iff. split; [intros X; right; split; eauto|]. intros [X|(_ & b & X & Y)]; [contradiction|]. inversion X; subst. auto.
    + inversion H; subst. split; [discriminate|]. intros [X|(X & _)]; [contradiction|].
      apply orb_false_iff in C as [C1 C2]. destruct X as [X|X]; apply is_comp_iff in X; congruence.
Qed.
Lemma string_not_char : forall x, string_ E x -> sform (T (oty x)) <> FChar.
Proof. intros x [X|(X & _)] Y; [congruence|]. apply array_comp in X. congruence. Qed.
Lemma stringtyp_form : sform (T (stringtyp E)) = FString.
Proof. apply (p_string E P PD). auto. Qed.
Lemma const_iff : forall x, is_const x = true <-> ocl x = Nconst.
Proof. intros. unfold is_const. apply Z.eqb_eq. Qed.
Lemma char_const_iff : forall x, is_form (form_of E x) FChar && is_const x = true <-> char_const E x.
Proof. intros. rewrite andb_true_iff, const_iff, is_form_iff. reflexivity. Qed.
Lemma CharToString_string : forall x, string_ E (CharToString E x).
Proof. intros. left. cbn [CharToString oty]. apply stringtyp_form. Qed.
Lemma strings_ok : forall x y ok x' y', strings E x y = Ok (ok, x', y') -> (ok = true <-> both_strings E x y).
Proof.
  intros x y ok x' y' H. unfold strings in H. apply bind_inv2 in H as (xa & X & H). apply bind_inv2 in H as (ya & Y & H).
  apply chararr_ok in X, Y. unfold both_strings.
  rewrite <- andb_assoc in H. pose proof (char_const_iff y) as CY. pose proof (char_const_iff x) as CX.
  destruct (is_form (form_of E y) FChar && is_const y) eqn:CYb.
  - assert (Cy : char_const E y) by (apply CY; auto).
    assert (NY : ~ string_ E y) by (intros Q; apply string_not_char in Q; destruct Cy; contradiction).
    destruct xa; cbn [andb] in H.
    + assert (SX : string_ E x) by (apply X; auto).
      assert (NC : ~ char_const E x) by (intros [Q _]; apply string_not_char in SX; contradiction).
      destruct (is_form (form_of E x) FChar && is_const x) eqn:CXb; [destruct NC; apply CX; auto|].
      assert (ok = true) as ->; [|tauto].
      destruct (is_form (form_of E x) FString && (olen x =? 1)); [inversion H; auto|].
      destruct (is_form (form_of E (CharToString E y)) FString && (olen (CharToString E y) =? 1)); inversion H; auto.
    + assert (NX : ~ string_ E x) by (intros Q; apply X in Q; discriminate).
      destruct ya; [destruct NY; apply Y; auto|]. cbn [andb] in H. inversion H; subst. split; [discriminate|tauto].
  - assert (NCy : ~ char_const E y) by (intros Q; apply CY in Q; discriminate). rewrite andb_false_r in H.
    destruct ya; cbn [andb] in H.
    + assert (SY : string_ E y) by (apply Y; auto).
      rewrite andb_true_iff in CX. destruct (is_form (form_of E x) FChar && is_const x) eqn:CXb.
      * assert (Cx : char_const E x) by (apply CX; apply andb_true_iff; auto).
        assert (ok = true) as ->; [|tauto]. cbn [andb] in H.
        destruct (is_form (form_of E (CharToString E x)) FString && (olen (CharToString E x) =? 1)); [inversion H; auto|].
        destruct (is_form (form_of E y) FString && (olen y =? 1)); inversion H; auto.
      * assert (NCx : ~ char_const E x) by (intros Q; apply CX in Q; apply andb_true_iff in Q; congruence).
        destruct xa; cbn [andb] in H.
        -- assert (SX : string_ E x) by (apply X; auto). assert (ok = true) as ->; [|tauto].
           destruct (is_form (form_of E x) FString && (olen x =? 1)); [inversion H; auto|].
           destruct (is_form (form_of E y) FString && (olen y =? 1)); inversion H; auto.
        -- assert (NX : ~ string_ E x) by (intros Q; apply X in Q; discriminate). inversion H; subst. split; [discriminate|tauto].
    + assert (NY : ~ string_ E y) by (intros Q; apply Y in Q; discriminate).
      rewrite andb_false_r in H. inversion H; subst. split; [discriminate|tauto].
Qed.

(** ** What each operator needs *)
Lemma need_num : forall op x y t, op = OPlus \/ op = OMinus \/ op = OTimes \/ op = OSlash -> oper E P op x y t ->
  numeric E (oty x) /\ numeric E (oty y) \/ set_ E (oty x) /\ set_ E (oty y).
Proof.
  intros op x y t O H. inversion H; subst; try (apply smallest_forms with (r := t); auto; fail).
  - left. unfold numeric. auto.
  - intuition congruence.
  - intuition congruence.
  - intuition congruence.
Qed.
Lemma need_div : forall op x y t, op = ODiv \/ op = OMod -> oper E P op x y t -> int_ E (oty x) /\ int_ E (oty y).
Proof. intros op x y t O H. inversion H; subst; auto; intuition congruence. Qed.
Lemma need_bool : forall op x y t, op = OAnd \/ op = OOr -> oper E P op x y t -> sform (T (oty x)) = FBool /\ sform (T (oty y)) = FBool.
Proof. intros op x y t O H. inversion H; subst; auto; intuition congruence. Qed.
Lemma need_eq : forall op x y t, op = OEql \/ op = ONeq -> oper E P op x y t -> equatable E x y.
Proof. intros op x y t O H. inversion H; subst; auto; intuition congruence. Qed.
Lemma need_cmp : forall op x y t, op = OLss \/ op = OLeq \/ op = OGtr \/ op = OGeq -> oper E P op x y t -> comparable E x y.
Proof. intros op x y t O H. inversion H; subst; auto; intuition congruence. Qed.
Lemma comparable_forms : forall x y, comparable E x y ->
  numeric E (oty x) \/ sform (T (oty x)) = FChar \/ sform (T (oty x)) = FString \/ sform (T (oty x)) = FComp.
Proof.
  intros x y H. destruct H; auto. destruct H as [[[X|(X & _)] _]|[[[X|(X & _)] _]|[[X _] _]]]; auto; apply array_comp in X; auto.
Qed.
Lemma equatable_comp : forall x y, equatable E x y -> sform (T (oty x)) = FString \/ sform (T (oty x)) = FComp -> both_strings E x y.
Proof.
  intros x y H C. destruct H as [H|H|H|H|H|H|f F H].
  - destruct H as [r N _ _|H _|H]; auto; exfalso; [destruct N as [N|[N|N]]|]; unfold int_ in *; intuition congruence.
  - intuition congruence.
  - intuition congruence.
  - unfold set_ in *; intuition congruence.
  - destruct H as (H & _). intuition congruence.
  - intuition congruence.
  - unfold nil_or in H. intuition congruence.
Qed.
Lemma zero_elsewhere : forall op y, ~ (op = OSlash \/ op = ODiv \/ op = OMod) -> ~ zero_divisor E op y.
Proof. intros op y N (H & _). auto. Qed.
Lemma set_not_zero : forall op y, set_ E (oty y) -> ~ zero_divisor E op y.
Proof. intros op y H (_ & _ & [[X _]|[[X|X] _]]); unfold set_, int_ in *; congruence. Qed.
Lemma smallest_int : forall x y r, smallest E x y r -> int_ E r -> int_ E x /\ int_ E y.
Proof.
  intros x y r (_ & A & B) I. unfold includes, int_, set_ in *. intuition congruence.
Qed.
Lemma smallest_is_int : forall x y r, smallest E x y r -> int_ E x -> int_ E y -> int_ E r.
Proof. intros x y r ([->| ->] & _) X Y; auto. Qed.
Lemma smallest_num : forall x y r, smallest E x y r -> numeric E x -> numeric E y -> numeric E r.
Proof. intros x y r ([->| ->] & _) X Y; auto. Qed.
Lemma smallest_set : forall x y r, smallest E x y r -> set_ E x -> set_ E y -> set_ E r.
Proof. intros x y r ([->| ->] & _) X Y; auto. Qed.

Definition body (op : binop) (z y : opnd) (e : list Z) : res out :=
    let f := form_of E z in
    let u := is_form f FUndef in
    let ret (e2 : list Z) (t : tid) := Ok (mkr (e ++ e2) t (oty z) (oty y)) in
    let zero := if is_const y && (oiv y =? 0) then [205] else [] in
    match op with
    | OTimes => if is_form f FInt || u || between FReal f FSet then ret [] (oty z) else ret [105] (undftyp E)
    | OSlash =>
        if is_form f FInt then
          Ok (mkr (e ++ zero) (realtyp P) (realtyp P) (realtyp P))
        else if in_real f then ret (if is_const y && orz y then [205] else []) (oty z)
        else if negb (is_form f FSet) && negb u then ret [102] (undftyp E)
        else ret [] (oty z)
    | ODiv => if is_form f FInt then ret zero (oty z) else if negb u then ret [103] (undftyp E) else ret [] (oty z)
    | OMod => if is_form f FInt then ret zero (oty z) else if negb u then ret [104] (undftyp E) else ret [] (oty z)
    | OAnd => if is_form f FBool then ret [] (oty z) else if negb u then ret [94] (undftyp E) else ret [] (oty z)
    | OPlus => if u || between FInt f FSet then ret [] (oty z) else ret [105] (undftyp E)
    | OMinus => if u || between FInt f FSet then ret [] (oty z) else ret [106] (undftyp E)
    | OOr => if is_form f FBool then ret [] (oty z) else if negb u then ret [95] (undftyp E) else ret [] (oty z)
    | OEql | ONeq =>
        if between FUndef f FSet || is_form f FNil || is_form f FPointer || is_form f FProc then ret [] (booltyp P)
        else
          let* (ok, z, y) := strings E z y in
          Ok (if ok then mkr e (booltyp P) (oty z) (oty y) else mkr (e ++ [107]) (undftyp E) (oty z) (oty y))
    | OLss | OLeq | OGtr | OGeq =>
        if u || between FChar f FLReal then ret [] (booltyp P)
        else
          let* (ok, z, y) := strings E z y in
          Ok (if ok then mkr e (booltyp P) (oty z) (oty y) else mkr (e ++ [108]) (undftyp E) (oty z) (oty y))
    end.
Lemma body_errs : forall op z y e r, body op z y e = Ok r -> e <> [] -> errs r <> [].
Proof.
  intros op z y e r H N Q. unfold body in H.
  assert (A : forall e2, e ++ e2 <> []) by (intros e2 X; apply app_eq_nil in X as [X _]; auto).
  destruct op; cbv zeta in H;
  repeat match type of H with
  | (if ?b then _ else _) = _ => destruct b
  | bind _ _ = Ok _ => let p := fresh in let s := fresh in apply bind_inv2 in H as (p & s & H); destruct p as [[ok z1] y1]; destruct ok
  end; inversion H; subst; cbn [errs] in Q; auto; eapply A; eauto.
Qed.

(** The result for operands that were matched. *)
Definition verdict (op : binop) (x y : opnd) (r : out) : Prop :=
  (errs r = [] -> oper E P op x y (rtyp r) /\ ~ zero_divisor E op y) /\
  ((exists t, oper E P op x y t) -> ~ zero_divisor E op y -> errs r = []).
Lemma verdict_ok : forall op x y r, errs r = [] -> oper E P op x y (rtyp r) -> ~ zero_divisor E op y -> verdict op x y r.
Proof. intros. split; auto. Qed.
Lemma verdict_no : forall op x y r, errs r <> [] -> (forall t, ~ oper E P op x y t) -> verdict op x y r.
Proof. intros op x y r A B. split; [contradiction|]. intros [t H]. destruct (B t H). Qed.
Ltac noz := apply zero_elsewhere; intuition congruence.
Lemma num_verdict : forall op x y z' y' t r, numeric E (oty x) -> numeric E (oty y) -> smallest E (oty x) (oty y) t -> oty z' = t -> converted y y' t ->
  body op z' y' [] = Ok r -> verdict op x y r.
Proof.
  intros op x y z' y' t r NX NY SM ZT (YT & YC & YI & YZ) H.
  pose proof (smallest_num _ _ _ SM NX NY) as NT. unfold body, form_of in H. rewrite ZT in H. cbv zeta in H. cbn [app] in H.
  assert (ZI : int_ E t -> zero_divisor E op y -> (op = OSlash \/ op = ODiv \/ op = OMod) /\ is_const y = true /\ oiv y = 0).
  { intros I (A & B & C). split; auto. split; [apply const_iff; auto|]. destruct (smallest_int _ _ _ SM I) as [_ IY].
    destruct C as [[_ C]|[C _]]; auto. destruct (form_int_real _ IY C). }
  destruct NT as [I|R].
  - (* integers *)
    destruct (smallest_int _ _ _ SM I) as [IX IY]. unfold int_ in I. rewrite I in H.
    assert (ZD : op = OSlash \/ op = ODiv \/ op = OMod -> (zero_divisor E op y <-> is_const y' && (oiv y' =? 0) = true)).
    { intros O. rewrite YC, YI, andb_true_iff, Z.eqb_eq, const_iff. unfold zero_divisor. split; [|tauto].
      intros Z. destruct (ZI I Z) as (_ & A & B). rewrite const_iff in A. auto. }
    assert (V : op = OSlash \/ op = ODiv \/ op = OMod -> forall u, oper E P op x y u -> forall l l',
      verdict op x y (mkr (if is_const y' && (oiv y' =? 0) then [205] else []) u l l')).
    { intros O u OP l l'. destruct (is_const y' && (oiv y' =? 0)) eqn:Z.
      - split; [discriminate|]. intros _ N. destruct N. apply ZD; auto.
      - apply verdict_ok; auto. intros X. apply ZD in X; auto. discriminate. }
    destruct op; cbn in H; inversion H; subst.
    + apply verdict_ok; [auto|apply op_arith; auto|noz].
    + apply V; [tauto|]. apply op_slash_int; auto.
    + apply V; [tauto|]. eapply op_div; eauto.
    + apply V; [tauto|]. eapply op_div; eauto.
    + apply verdict_no; [discriminate|]. intros u U. apply need_bool in U as [U _]; auto. unfold int_ in IX. congruence.
    + apply verdict_ok; [auto|apply op_arith; auto|noz].
    + apply verdict_ok; [auto|apply op_arith; auto|noz].
    + apply verdict_no; [discriminate|]. intros u U. apply need_bool in U as [U _]; auto. unfold int_ in IX. congruence.
    + apply verdict_ok; [auto|apply op_eq; auto; apply eq_cmp; eapply cmp_num; eauto|noz].
    + apply verdict_ok; [auto|apply op_eq; auto; apply eq_cmp; eapply cmp_num; eauto|noz].
    + apply verdict_ok; [auto|apply op_cmp; auto; eapply cmp_num; eauto|noz].
    + apply verdict_ok; [auto|apply op_cmp; auto; eapply cmp_num; eauto|noz].
    + apply verdict_ok; [auto|apply op_cmp; auto; eapply cmp_num; eauto|noz].
    + apply verdict_ok; [auto|apply op_cmp; auto 6; eapply cmp_num; eauto|noz].
  - (* reals *)
    assert (F : is_form (sform (T t)) FInt = false /\ is_form (sform (T t)) FBool = false /\ in_real (sform (T t)) = true /\
      is_form (sform (T t)) FUndef = false /\ between FReal (sform (T t)) FSet = true /\ between FInt (sform (T t)) FSet = true /\
      between FUndef (sform (T t)) FSet = true /\ between FChar (sform (T t)) FLReal = true).
    { destruct R as [-> | ->]; repeat split; reflexivity. }
    destruct F as (F1 & F2 & F3 & F4 & F5 & F6 & F7 & F8). rewrite F1, ?F2, ?F3, ?F4, ?F5, ?F6, ?F7, ?F8 in H. cbn [negb orb] in H.
    assert (NI : ~ (int_ E (oty x) /\ int_ E (oty y))).
    { intros [A B]. pose proof (smallest_is_int _ _ _ SM A B). destruct (form_int_real _ H0 R). }
    destruct op; inversion H; subst.
    + apply verdict_ok; [auto|apply op_arith; auto|noz].
    + assert (ZD : zero_divisor E OSlash y <-> is_const y' && orz y' = true).
      { rewrite YC, andb_true_iff. unfold zero_divisor. split.
        - intros (_ & A & B). apply const_iff in A. split; auto. apply YZ; auto.
        - intros (A & B). apply YZ in B; auto. apply const_iff in A. auto. }
      destruct (is_const y' && orz y') eqn:Z.
      * split; [discriminate|]. intros _ N. destruct N. apply ZD; auto.
      * apply verdict_ok; auto; [apply op_slash_real; auto|]. intros X. apply ZD in X. discriminate.
    + apply verdict_no; [discriminate|]. intros u U. apply need_div in U; auto.
    + apply verdict_no; [discriminate|]. intros u U. apply need_div in U; auto.
    + apply verdict_no; [discriminate|]. intros u U. apply need_bool in U as [U V]; auto. destruct NX as [NX|[NX|NX]]; unfold int_ in *; congruence.
    + apply verdict_ok; [auto|apply op_arith; auto|noz].
    + apply verdict_ok; [auto|apply op_arith; auto|noz].
    + apply verdict_no; [discriminate|]. intros u U. apply need_bool in U as [U V]; auto. destruct NX as [NX|[NX|NX]]; unfold int_ in *; congruence.
    + apply verdict_ok; [auto|apply op_eq; auto; apply eq_cmp; eapply cmp_num; eauto|noz].
    + apply verdict_ok; [auto|apply op_eq; auto; apply eq_cmp; eapply cmp_num; eauto|noz].
    + apply verdict_ok; [auto|apply op_cmp; auto; eapply cmp_num; eauto|noz].
    + apply verdict_ok; [auto|apply op_cmp; auto; eapply cmp_num; eauto|noz].
    + apply verdict_ok; [auto|apply op_cmp; auto; eapply cmp_num; eauto|noz].
    + apply verdict_ok; [auto|apply op_cmp; auto 6; eapply cmp_num; eauto|noz].
Qed.
Lemma not_comparable : forall x y, comparable E x y ->
  match sform (T (oty x)) with FInt | FReal | FLReal | FChar | FString | FComp => True | _ => False end.
Proof.
  intros x y H. destruct (comparable_forms _ _ H) as [[N|[N|N]]|[N|[N|N]]]; unfold int_ in *; rewrite N; exact I.
Qed.
Lemma strings_no : forall x y ok x' y', strings E x y = Ok (ok, x', y') ->
  match sform (T (oty x)) with FString | FComp | FChar => False | _ => True end -> ok = false.
Proof.
  intros x y ok x' y' H F. destruct ok; auto. exfalso.
  assert (both_strings E x y) as B by (eapply strings_ok; eauto).
  destruct B as [[[X|(X & _)] _]|[[[X|(X & _)] _]|[[X _] _]]]; try (apply array_comp in X); rewrite X in F; auto.
Qed.
Lemma set_verdict : forall op x y z' y' t r, set_ E (oty x) -> set_ E (oty y) -> smallest E (oty x) (oty y) t -> oty z' = t ->
  body op z' y' [] = Ok r -> verdict op x y r.
Proof.
  intros op x y z' y' t r NX NY SM ZT H.
  pose proof (smallest_set _ _ _ SM NX NY) as F. unfold body, form_of in H. rewrite ZT in H. unfold set_ in F. rewrite F in H. cbv zeta in H.
  assert (NC : ~ comparable E x y).
  { intros C. apply not_comparable in C. unfold set_ in NX. rewrite NX in C. auto. }
  assert (CMP : forall op1 n, op1 = OLss \/ op1 = OLeq \/ op1 = OGtr \/ op1 = OGeq ->
     (let* (ok, z, y) := strings E z' y' in Ok (if ok : bool then mkr [] (booltyp P) (oty z) (oty y) else mkr ([] ++ [n]) (undftyp E) (oty z) (oty y))) = Ok r ->
     verdict op1 x y r).
  { intros op1 n O X. apply bind_inv2 in X as ([[ok z1] y1] & S & X). rewrite (strings_no _ _ _ _ _ S) in X by (rewrite ZT, F; exact I).
    inversion X; subst. apply verdict_no; [discriminate|]. intros u U. apply need_cmp in U; auto. }
  destruct op; try (apply (CMP _ 108); [tauto|exact H]); inversion H; subst.
  + apply verdict_ok; [auto|apply op_set; auto|noz].
  + apply verdict_ok; [auto|apply op_set; auto|apply set_not_zero; auto].
  + apply verdict_no; [discriminate|]. intros u U. apply need_div in U as [U _]; auto. unfold int_, set_ in *. congruence.
  + apply verdict_no; [discriminate|]. intros u U. apply need_div in U as [U _]; auto. unfold int_, set_ in *. congruence.
  + apply verdict_no; [discriminate|]. intros u U. apply need_bool in U as [U _]; auto. unfold int_, set_ in *. congruence.
  + apply verdict_ok; [auto|apply op_set; auto|noz].
  + apply verdict_ok; [auto|apply op_set; auto|noz].
  + apply verdict_no; [discriminate|]. intros u U. apply need_bool in U as [U _]; auto. unfold int_, set_ in *. congruence.
  + apply verdict_ok; [auto|apply op_eq; auto; apply eq_set; auto|noz].
  + apply verdict_ok; [auto|apply op_eq; auto; apply eq_set; auto|noz].
Qed.
(** Operands of other types: only comparisons. *)
Lemma other_verdict : forall op x y z' e r, e = [] -> ~ numeric E (oty x) -> ~ set_ E (oty x) ->
  sform (T (oty z')) <> FUndef -> ~ numeric E (oty z') -> ~ set_ E (oty z') ->
  (sform (T (oty z')) = FBool -> sform (T (oty x)) = FBool /\ sform (T (oty y)) = FBool) ->
  (sform (T (oty x)) = FBool /\ sform (T (oty y)) = FBool -> sform (T (oty z')) = FBool) ->
  (forall c r, (op = OEql \/ op = ONeq) /\ c = 107 \/ (op = OLss \/ op = OLeq \/ op = OGtr \/ op = OGeq) /\ c = 108 ->
     body op z' y e = Ok r -> verdict op x y r) ->
  body op z' y e = Ok r -> verdict op x y r.
Proof.
  intros op x y z' e r -> NX SX NU NZ SZ B1 B2 REL H.
  assert (IB : forall g, g <> sform (T (oty z')) -> is_form (sform (T (oty z'))) g = false).
  { intros g N. destruct (is_form (sform (T (oty z'))) g) eqn:Q; auto. apply is_form_iff in Q. congruence. }
  assert (I1 : is_form (sform (T (oty z'))) FInt = false) by (apply IB; intros Q; apply NZ; left; unfold int_; auto).
  assert (I2 : is_form (sform (T (oty z'))) FSet = false) by (apply IB; intros Q; apply SZ; unfold set_; auto).
  assert (I3 : is_form (sform (T (oty z'))) FUndef = false) by (apply IB; auto).
  assert (I4 : in_real (sform (T (oty z'))) = false).
  { unfold in_real. rewrite !IB; auto; intros Q; apply NZ; right; unfold real_; auto. }
  assert (I5 : between FReal (sform (T (oty z'))) FSet = false /\ between FInt (sform (T (oty z'))) FSet = false).
  { destruct (sform (T (oty z'))) eqn:Q; split; try reflexivity; exfalso.
    - apply NZ. left. auto.
    - apply NZ. right. left. auto.
    - apply NZ. right. left. auto.
    - apply NZ. right. right. auto.
    - apply NZ. right. right. auto.
    - apply SZ. auto.
    - apply SZ. auto. }
  destruct I5 as [I5 I6].
  assert (NN : forall op1, op1 = OPlus \/ op1 = OMinus \/ op1 = OTimes \/ op1 = OSlash -> forall t, ~ oper E P op1 x y t).
  { intros op1 O t U. destruct (need_num _ _ _ _ O U) as [[A _]|[A _]]; auto. }
  assert (ND : forall op1, op1 = ODiv \/ op1 = OMod -> forall t, ~ oper E P op1 x y t).
  { intros op1 O t U. destruct (need_div _ _ _ _ O U) as [A _]. apply NX. left. auto. }
  pose proof H as H0. unfold body, form_of in H. cbv zeta in H. rewrite ?I1, ?I2, ?I3, ?I4, ?I5, ?I6 in H. cbn [negb orb andb app] in H.
  destruct op; try (apply (REL 107 r); [left; tauto|exact H0]); try (apply (REL 108 r); [right; tauto|exact H0]).
  1,2,3,4,6,7: inversion H; subst; apply verdict_no; [discriminate|auto].
  all: destruct (is_form (sform (T (oty z'))) FBool) eqn:B; inversion H; subst.
  1,3: apply is_form_iff in B; destruct (B1 B) as [BX BY]; apply verdict_ok; [auto| |noz]; cbn [rtyp];
       apply (p_bool E P PD) in B; rewrite B; apply op_bool; auto.
  all: apply verdict_no; [discriminate|]; intros u U; apply need_bool in U; auto; apply B2 in U; apply is_form_iff in U; congruence.
Qed.

Definition rel (op : binop) : Prop := (op = OEql \/ op = ONeq) \/ (op = OLss \/ op = OLeq \/ op = OGtr \/ op = OGeq).
Lemma str_verdict : forall op x y z' r, rel op -> sform (T (oty z')) = FString \/ sform (T (oty z')) = FComp ->
  (both_strings E z' y <-> both_strings E x y) -> (equatable E x y -> both_strings E x y) ->
  body op z' y [] = Ok r -> verdict op x y r.
Proof.
  intros op x y z' r RL FZ BS EB H.
  assert (CB : comparable E x y -> both_strings E x y) by (intros Q; apply EB; apply eq_cmp; auto).
  assert (ST : forall n, (let* (ok, z, y) := strings E z' y in
     Ok (if ok : bool then mkr [] (booltyp P) (oty z) (oty y) else mkr ([] ++ [n]) (undftyp E) (oty z) (oty y))) = Ok r -> verdict op x y r).
  { intros n X. apply bind_inv2 in X as ([[ok z1] y1] & S & X). apply strings_ok in S. destruct ok; inversion X; subst.
    - assert (B : both_strings E x y) by (apply BS, S; auto).
      destruct RL as [RL|RL]; apply verdict_ok; auto; try noz.
      + apply op_eq; auto. apply eq_cmp, cmp_str; auto.
      + apply op_cmp; auto. apply cmp_str; auto.
    - apply verdict_no; [discriminate|]. intros u U. assert (B : both_strings E x y).
      { destruct RL as [RL|RL]; [apply need_eq in U|apply need_cmp in U]; auto. }
      apply BS, S in B. discriminate. }
  unfold body, form_of in H. cbv zeta in H.
  destruct FZ as [FZ|FZ]; rewrite FZ in H; destruct op; try (apply (ST 107), H); try (apply (ST 108), H); destruct RL; intuition discriminate.
Qed.
Lemma plain_verdict : forall op x y r, rel op ->
  match sform (T (oty x)) with FByte | FBool | FNil | FPointer | FProc => equatable E x y | FChar => comparable E x y | FNoTyp => ~ equatable E x y | _ => False end ->
  body op x y [] = Ok r -> verdict op x y r.
Proof.
  intros op x y r RL FX H.
  assert (CMP : match sform (T (oty x)) with FInt | FReal | FLReal | FChar | FString | FComp => False | _ => True end -> forall op1 n, op1 = OLss \/ op1 = OLeq \/ op1 = OGtr \/ op1 = OGeq ->
     (let* (ok, z, y) := strings E x y in Ok (if ok : bool then mkr [] (booltyp P) (oty z) (oty y) else mkr ([] ++ [n]) (undftyp E) (oty z) (oty y))) = Ok r ->
     verdict op1 x y r).
  { intros F op1 n O X. apply bind_inv2 in X as ([[ok z1] y1] & S & X). rewrite (strings_no _ _ _ _ _ S) in X by (destruct (sform (T (oty x))); auto).
    inversion X; subst. apply verdict_no; [discriminate|]. intros u U. apply need_cmp in U; auto. apply not_comparable in U. destruct (sform (T (oty x))); auto. }
  assert (EQ : forall op1, op1 = OEql \/ op1 = ONeq -> equatable E x y -> r = mkr [] (booltyp P) (oty x) (oty y) -> verdict op1 x y r).
  { intros op1 O Q ->. apply verdict_ok; auto; [apply op_eq; auto|noz]. }
  assert (NE : sform (T (oty x)) = FNoTyp -> ~ equatable E x y -> forall op1 n, op1 = OEql \/ op1 = ONeq ->
     (let* (ok, z, y) := strings E x y in Ok (if ok : bool then mkr [] (booltyp P) (oty z) (oty y) else mkr ([] ++ [n]) (undftyp E) (oty z) (oty y))) = Ok r ->
     verdict op1 x y r).
  { intros F Q op1 n O X. apply bind_inv2 in X as ([[ok z1] y1] & S & X). rewrite (strings_no _ _ _ _ _ S) in X by (rewrite F; exact I).
    inversion X; subst. apply verdict_no; [discriminate|]. intros u U. apply need_eq in U; auto. }
  unfold body, form_of in H. cbv zeta in H.
  destruct (sform (T (oty x))) eqn:F; try contradiction;
  destruct op; try (exfalso; destruct RL; intuition discriminate);
  try (apply (CMP I _ 108); [tauto|exact H]); try (apply (NE eq_refl FX _ 107); [tauto|exact H]);
  try (apply EQ; [tauto|auto; apply eq_cmp; auto|inversion H; auto]).
  all: inversion H; subst; apply verdict_ok; auto; [apply op_cmp; [tauto|auto]|noz].
Qed.
Lemma same_smallest : forall t, numeric E t \/ set_ E t -> smallest E t t t.
Proof.
  intros t H. assert (includes E t t); [|split; auto]. unfold includes, numeric, real_, int_, set_ in *.
  destruct H as [[H|[H|H]]|H]; rewrite H; intuition lia.
Qed.
Lemma both_same_char : forall x y, oty x = oty y -> sform (T (oty x)) = FChar -> ~ both_strings E x y.
Proof.
  intros x y Q F B. destruct B as [[X Y]|[[X Y]|[X Y]]]; apply string_not_char in X || apply string_not_char in Y; congruence.
Qed.
Lemma matched_verdict : forall op x y z' y' e r, operand E x -> operand E y -> matched x y z' y' e -> body op z' y' e = Ok r -> verdict op x y r.
Proof.
  intros op x y z' y' e r (X1 & X2 & X3) (Y1 & Y2 & Y3) M H.
  destruct M as [Q|z' y' t NX NY SM ZT CV|z' y' t NX NY SM ZT YT|Q CC|Q FS|Q FC|PT REL|z' y' e NE NR].
  - (* one type *)
    assert (NUM : numeric E (oty x) -> verdict op x y r).
    { intros N. eapply num_verdict with (t := oty x); try exact H; auto; rewrite <- ?Q; auto; [apply same_smallest; auto|].
      rewrite Q. apply same_converted. rewrite <- Q. auto. }
    assert (SET : set_ E (oty x) -> verdict op x y r).
    { intros N. eapply set_verdict with (t := oty x); try exact H; auto; rewrite <- ?Q; auto. apply same_smallest; auto. }
    destruct (sform (T (oty x))) eqn:F; try congruence; try (apply NUM; unfold numeric, int_, real_; auto; fail); try (apply SET; exact F).
    all: assert (NN : ~ numeric E (oty x)) by (unfold numeric, int_, real_; intuition congruence);
      assert (NS : ~ set_ E (oty x)) by (unfold set_; congruence);
      eapply other_verdict; try exact H; auto; try congruence; try (rewrite <- Q; tauto); try (rewrite <- Q; intros ? ; split; congruence).
    all: intros c r0 C H1; assert (RL : rel op) by (unfold rel; tauto).
    all: try (lazymatch type of F with _ = FString => fail | _ = FComp => fail | _ => apply plain_verdict; auto; rewrite F end).
    + apply eq_byte; congruence.
    + apply eq_bool; congruence.
    + apply cmp_char; congruence.
    + eapply str_verdict; try exact H1; auto; [tauto|]. intros EQ. apply equatable_comp; auto.
    + apply eq_nil with (f := FNil); [auto|]. unfold nil_or. left. split; congruence.
    + intros EQ. destruct EQ as [EQ|EQ|EQ|EQ|EQ|EQ|f0 F0 EQ].
      * apply not_comparable in EQ. rewrite F in EQ. auto.
      * congruence.
      * congruence.
      * contradiction.
      * destruct EQ; congruence.
      * congruence.
      * unfold nil_or in EQ. intuition congruence.
    + apply eq_ptr. split; [auto|]. split; [congruence|]. auto.
    + apply eq_proc; auto.
    + eapply str_verdict; try exact H1; auto; [tauto|]. intros EQ. apply equatable_comp; auto.
  - eapply num_verdict; eauto.
  - eapply (set_verdict op x y z' y' t); eauto.
  - (* a character constant *)
    destruct CC as [FC CC].
    assert (FZ : sform (T (oty (CharToString E x))) = FString) by apply stringtyp_form.
    eapply other_verdict; try exact H; auto; try (unfold numeric, int_, real_, set_; rewrite ?FZ, ?FC; intuition congruence).
    intros c r0 C H1. assert (RL : rel op) by (unfold rel; tauto).
    assert (NC : ~ char_const E y). { intros [A _]. apply (p_char E P PD) in A, FC. congruence. }
    assert (NSX : ~ string_ E x) by (intros A; apply string_not_char in A; contradiction).
    eapply str_verdict; try exact H1; auto.
    + unfold both_strings. pose proof (CharToString_string x). assert (char_const E x) by (split; auto). tauto.
    + intros EQ. destruct EQ as [EQ|EQ|EQ|EQ|EQ|EQ|f0 F0 EQ]; try congruence.
      * destruct EQ as [u N _ _|A B|B]; auto; exfalso.
        -- destruct N as [N|[N|N]]; unfold int_ in *; congruence.
        -- apply (p_char E P PD) in A, B. congruence.
      * unfold pointers in EQ. intuition congruence.
      * unfold nil_or in EQ. intuition congruence.
  - eapply other_verdict; try exact H; auto; try (unfold numeric, int_, real_, set_; rewrite ?FS; intuition congruence).
    intros c r0 C H1. eapply str_verdict; try exact H1; auto; [unfold rel; tauto|tauto|]. intros EQ. apply equatable_comp; auto.
  - eapply other_verdict; try exact H; auto; try (unfold numeric, int_, real_, set_; rewrite ?FC; intuition congruence).
    intros c r0 C H1. eapply str_verdict; try exact H1; auto; [unfold rel; tauto|tauto|]. intros EQ. apply equatable_comp; auto.
  - assert (EQ : equatable E x y).
    { destruct REL as [REL|(f & F & REL)]; [apply eq_ptr; auto|eapply eq_nil; eauto]. }
    eapply other_verdict; try exact H; auto; try (unfold numeric, int_, real_, set_; intuition congruence).
    intros c r0 C H1. apply plain_verdict; auto; [unfold rel; tauto|]. destruct PT as [-> | [-> | ->]]; auto.
  - split.
    + intros A. destruct (body_errs _ _ _ _ _ H NE A).
    + intros [t O] _. destruct NR. eapply oper_related; eauto.
Qed.

Lemma not_value_iff : forall x, not_value x = false <-> value_node x.
Proof. intros x. unfold not_value, value_node. rewrite orb_false_iff, !Z.eqb_neq. tauto. Qed.
Lemma Op_body : forall fuel op x y, value_node x -> value_node y -> ~ (ocl x = Nconst /\ ocl y = Nconst) ->
  Op E P lev foldtyp folderr fuel op x y = (let* (z, y, e) := match_types E lev fuel x y in body op z y e).
Proof.
  intros fuel op x y VX VY NC. unfold Op. apply not_value_iff in VX, VY. rewrite VX, VY. cbn [orb].
  destruct (is_const x) eqn:A; destruct (is_const y) eqn:B; try reflexivity. exfalso. apply NC. rewrite <- !const_iff. auto.
Qed.
(** An expression with an operator that has a value at run time is accepted exactly if the report allows the operator for its operands and it
    does not divide by a constant 0, and its type is the one of the report. *)
Theorem C82_exact : forall fuel op x y r, operand E x -> operand E y -> ~ (ocl x = Nconst /\ ocl y = Nconst) ->
  Op E P lev foldtyp folderr fuel op x y = Ok r ->
  (errs r = [] <-> value_node x /\ value_node y /\ (exists t, oper E P op x y t) /\ ~ zero_divisor E op y) /\
  (errs r = [] -> oper E P op x y (rtyp r)).
Proof.
  intros fuel op x y r OX OY NC H.
  destruct (not_value x || not_value y) eqn:V.
  - unfold Op in H. rewrite V in H. inversion H; subst. cbn [errs]. apply orb_true_iff in V.
    assert (~ (value_node x /\ value_node y)). { intros [A B]. apply not_value_iff in A, B. destruct V; congruence. }
    split; [split|]; try discriminate. tauto.
  - apply orb_false_iff in V as [V1 V2]. apply not_value_iff in V1, V2. rewrite Op_body in H by auto.
    apply bind_inv2 in H as ([[z y'] e] & M & H). apply match_types_spec in M; auto.
    destruct (matched_verdict _ _ _ _ _ _ _ OX OY M H) as [A B]. split; [split|].
    + intros Q. destruct (A Q) as [C D]. repeat split; eauto; apply V1 || apply V2.
    + intros (_ & _ & C & D). auto.
    + intros Q. apply A; auto.
Qed.

(** Numbers and sets get one type, the smallest that includes both, or REAL if integers are divided with [/]. *)
Theorem C82_converted : forall fuel op x y r, operand E x -> operand E y -> ~ (ocl x = Nconst /\ ocl y = Nconst) ->
  Op E P lev foldtyp folderr fuel op x y = Ok r -> errs r = [] -> numeric E (oty x) \/ set_ E (oty x) ->
  left r = right r /\
  (smallest E (oty x) (oty y) (left r) \/ op = OSlash /\ int_ E (oty x) /\ int_ E (oty y) /\ left r = realtyp P).
Proof.
  intros fuel op x y r OX OY NC H NE N.
  destruct (proj1 (proj1 (C82_exact _ _ _ _ _ OX OY NC H)) NE) as (VX & VY & (t & O) & _). rewrite Op_body in H by auto.
  apply bind_inv2 in H as ([[z y'] e] & M & H). apply match_types_spec in M; auto. pose proof (oper_related _ _ _ _ O) as RL.
  assert (G : (exists t, smallest E (oty x) (oty y) t /\ oty z = t /\ oty y' = t) /\ (numeric E (oty x) /\ numeric E (oty y) \/ set_ E (oty x) /\ set_ E (oty y))).
  { destruct M as [Q|z' y' t0 NX NY SM ZT (YT & _)|z' y' t0 NX NY SM ZT YT|Q [FC CC]|Q FS|Q FC|PT REL|z' y' e NE1 NR].
    - rewrite <- Q. split; [|tauto]. exists (oty x). repeat split; auto; apply same_smallest; auto.
    - split; [|tauto]. exists t0. auto.
    - split; [|tauto]. exists t0. auto.
    - exfalso. unfold numeric, int_, real_, set_ in N. intuition congruence.
    - exfalso. unfold numeric, int_, real_, set_ in N. intuition congruence.
    - exfalso. unfold numeric, int_, real_, set_ in N. intuition congruence.
    - exfalso. unfold numeric, int_, real_, set_ in N. intuition congruence.
    - contradiction. }
  destruct G as [(t0 & SM & ZT & YT) NN]. unfold body, form_of in H. rewrite ZT in H. cbv zeta in H.
  assert (NS : match sform (T t0) with FInt | FReal | FLReal | FSet => True | _ => False end).
  { destruct NN as [[A B]|[A B]]; [pose proof (smallest_num _ _ _ SM A B) as [X|[X|X]]|pose proof (smallest_set _ _ _ SM A B) as X];
    unfold int_, set_ in X; rewrite X; exact I. }
  destruct op; cbv zeta in H;
  repeat match type of H with
  | (if ?b then _ else _) = _ => destruct b eqn:?
  | bind _ _ = Ok _ => let p := fresh in let s := fresh in apply bind_inv2 in H as (p & s & H); destruct p as [[ok z1] y1]; destruct ok
  end; inversion H; subst; cbn [errs left right] in *;
  try (apply app_eq_nil in NE as [_ NE]; discriminate); try (rewrite YT; split; auto; fail).
  - split; auto. right. match goal with h : is_form _ FInt = true |- _ => apply is_form_iff in h; destruct (smallest_int _ _ _ SM h) end. auto.
  - exfalso. assert (B : both_strings E z y') by (eapply strings_ok; eauto).
    destruct B as [[[X|(X & _)] _]|[[[X|(X & _)] _]|[[X _] _]]]; try (apply array_comp in X); rewrite X in NS; auto.
  - exfalso. assert (B : both_strings E z y') by (eapply strings_ok; eauto).
    destruct B as [[[X|(X & _)] _]|[[[X|(X & _)] _]|[[X _] _]]]; try (apply array_comp in X); rewrite X in NS; auto.
  - exfalso. assert (B : both_strings E z y') by (eapply strings_ok; eauto).
    destruct B as [[[X|(X & _)] _]|[[[X|(X & _)] _]|[[X _] _]]]; try (apply array_comp in X); rewrite X in NS; auto.
  - exfalso. assert (B : both_strings E z y') by (eapply strings_ok; eauto).
    destruct B as [[[X|(X & _)] _]|[[[X|(X & _)] _]|[[X _] _]]]; try (apply array_comp in X); rewrite X in NS; auto.
  - exfalso. assert (B : both_strings E z y') by (eapply strings_ok; eauto).
    destruct B as [[[X|(X & _)] _]|[[[X|(X & _)] _]|[[X _] _]]]; try (apply array_comp in X); rewrite X in NS; auto.
  - exfalso. assert (B : both_strings E z y') by (eapply strings_ok; eauto).
    destruct B as [[[X|(X & _)] _]|[[[X|(X & _)] _]|[[X _] _]]]; try (apply array_comp in X); rewrite X in NS; auto.
Qed.

(** ** Constants *)
Definition cmatched (x y x' : opnd) (e : list Z) : Prop :=
  e = [] /\
    (numeric E (oty x) /\ numeric E (oty y) /\ (exists t, smallest E (oty x) (oty y) t /\ sform (T (oty x')) = sform (T t)) \/
     set_ E (oty x) /\ set_ E (oty y) /\ set_ E (oty x') \/
     x' = x /\ sform (T (oty x)) = sform (T (oty y)) /\ (sform (T (oty x)) = FBool \/ sform (T (oty x)) = FChar \/ sform (T (oty x)) = FNil) \/
     both_strings E x y /\ sform (T (oty x')) = FString) \/
  e <> [] /\ ~ related x y.
Lemma const_match_spec : forall fuel x y x' y' e, operand E x -> operand E y -> ocl x = Nconst -> ocl y = Nconst ->
  const_match E P lev fuel x y = Ok (x', y', e) -> cmatched x y x' e.
Proof.
  intros fuel x y x' y' e (X1 & X2 & X3) (Y1 & Y2 & Y3) CX CY H. specialize (X2 CX). specialize (Y2 CY).
  assert (REAL : sform (T (realtyp P)) = FReal) by (apply (p_real E P PD); auto).
  assert (LREAL : sform (T (lrltyp P)) = FLReal) by (apply (p_lreal E P PD); auto).
  pose proof stringtyp_form as ST.
  assert (NUM : forall t, numeric E (oty x) -> numeric E (oty y) -> smallest E (oty x) (oty y) t -> sform (T (oty x')) = sform (T t) -> e = [] -> cmatched x y x' e).
  { intros t A B C D ->. left. split; auto. left. eauto. }
  assert (STR : both_strings E x y -> sform (T (oty x')) = FString -> e = [] -> cmatched x y x' e).
  { intros A B ->. left. split; auto. }
  assert (BAD : e <> [] -> ~ related x y -> cmatched x y x' e) by (intros; right; auto).
  assert (NR : sform (T (oty x)) <> sform (T (oty y)) -> ~ (numeric E (oty x) /\ numeric E (oty y)) -> ~ both_strings E x y -> ~ related x y).
  { intros A B C R. unfold related in R. destruct R as [R|[R|[R|[R|[R|[R|[R|[R|R]]]]]]]]; auto.
    - unfold set_ in R. intuition congruence.
    - intuition congruence.
    - intuition congruence.
    - intuition congruence.
    - destruct R as (R & _). rewrite R in X2. auto.
    - destruct R as (R & _). rewrite R in X2. auto.
    - destruct R as (f & F & R). unfold nil_or in R. destruct R as [[R1 R2]|[R1 R2]].
      + rewrite R2 in *. destruct F as [F|[F|F]]; subst; [congruence|auto|auto].
      + rewrite R1 in *. destruct F as [F|[F|F]]; subst; [congruence|auto|auto]. }
  assert (NB : sform (T (oty x)) <> FComp -> sform (T (oty y)) <> FComp -> ~ (sform (T (oty x)) = FString /\ (sform (T (oty y)) = FString \/ sform (T (oty y)) = FChar) \/ sform (T (oty x)) = FChar /\ sform (T (oty y)) = FString) -> ~ both_strings E x y).
  { intros A1 A2 A B. apply A. unfold both_strings, string_, char_const in B.
    destruct B as [[[B|(B & _)] [C|(C & _)]]|[[[B|(B & _)] C]|[B [C|(C & _)]]]]; try (apply array_comp in B; contradiction); try (apply array_comp in C; contradiction); intuition. }
  unfold const_match, form_of in H.
  destruct (is_form (sform (T (oty x))) (sform (T (oty y)))) eqn:FG.
  - apply is_form_iff in FG. inversion H; subst.
    assert (C : numeric E (oty x') -> cmatched x' y' x' []).
    { intros N. destruct (num_smallest (oty x') (oty y')) as [t SM]; auto.
      - unfold numeric, real_, int_ in *. rewrite <- FG. auto.
      - apply (NUM t); auto; [unfold numeric, real_, int_ in *; rewrite <- FG; auto|]. destruct SM as [[->| ->] _]; auto. }
    destruct (sform (T (oty x'))) eqn:F; try contradiction; try (apply C; unfold numeric, real_, int_; auto; fail).
    + left. split; auto. right. right. left. rewrite F, <- FG. auto.
    + left. split; auto. right. right. left. rewrite F, <- FG. auto.
    + left. split; auto. right. left. unfold set_. auto.
    + apply STR; auto. left. split; left; congruence.
    + left. split; auto. right. right. left. rewrite F, <- FG. auto.
  - assert (NQ : sform (T (oty x)) <> sform (T (oty y))) by (intros Q; apply is_form_iff in Q; congruence).
    assert (BD : e = [100] -> ~ (numeric E (oty x) /\ numeric E (oty y)) -> ~ both_strings E x y -> cmatched x y x' e).
    { intros A B C. apply BAD; [rewrite A; discriminate|]. apply NR; auto. }
    clear NR BAD.
    destruct (sform (T (oty x))) eqn:F; try contradiction; destruct (sform (T (oty y))) eqn:G; try contradiction; try congruence;
    cbn [is_form negb orb] in H; injection H as <- <- <-.
    all: first
      [ apply BD; [reflexivity|unfold numeric, real_, int_; rewrite F, G; clear; intuition discriminate|apply NB; [discriminate|discriminate|clear; intuition discriminate]]
      | apply STR; [unfold both_strings, string_, char_const; rewrite ?F, ?G; clear - CX CY; tauto|exact F || exact ST|reflexivity]
      | apply (NUM (oty y)); [unfold numeric, int_, real_; rewrite F; clear; tauto|unfold numeric, int_, real_; rewrite G; clear; tauto
                             |unfold smallest, includes, numeric, int_, real_; rewrite ?F, ?G; clear; tauto|cbn [Convert with_type oty]; congruence|reflexivity]
      | apply (NUM (oty x)); [unfold numeric, int_, real_; rewrite F; clear; tauto|unfold numeric, int_, real_; rewrite G; clear; tauto
                             |unfold smallest, includes, numeric, int_, real_; rewrite ?F, ?G; clear; tauto|cbn [Convert with_type oty]; congruence|reflexivity]
      | idtac ].
Qed.
Lemma ConstOp_spec : forall fuel op x y r, operand E x -> operand E y -> ocl x = Nconst -> ocl y = Nconst ->
  (forall op a b, sform (T (oty a)) = FInt \/ sform (T (oty a)) = FSet -> sform (T (foldtyp op a b)) = sform (T (oty a))) ->
  ConstOp E P lev foldtyp folderr fuel op x y = Ok r ->
  (errs r = [] -> exists t, oper E P op x y t /\ alike E t (rtyp r)) /\
  ((exists t, oper E P op x y t) -> (forall a b, folderr op a b = []) -> errs r = []).
Proof.
  intros fuel op x y r OX OY CX CY FT H. unfold ConstOp in H. apply bind_inv2 in H as ([[x' y'] e] & M & H).
  apply const_match_spec in M; auto. inversion H as [R]. clear H.
  assert (BT : sform (T (booltyp P)) = FBool) by (apply (p_bool E P PD); auto).
  destruct M as [(-> & M)|(NE & NR)].
  2:{ assert (errs r <> []).
    { intros Q. rewrite <- R in Q. destruct op; repeat match type of Q with context [if ?b then _ else _] => destruct b end; cbn [errs] in Q; try (apply app_eq_nil in Q as [Q _]); auto. }
    rewrite R. split; [contradiction|]. intros [t O] _. destruct NR. eapply oper_related; eauto. }
  rewrite R. assert (PASS : forall t, oper E P op x y t -> sform (T (rtyp r)) = sform (T t) -> errs r = [] \/ errs r = folderr op x' y' ->
    (errs r = [] -> exists t, oper E P op x y t /\ alike E t (rtyp r)) /\ ((exists t, oper E P op x y t) -> (forall a b, folderr op a b = []) -> errs r = [])).
  { intros t O A B. split; [intros _; exists t; unfold alike; auto|]. intros _ FE. destruct B as [B|B]; rewrite B; auto. }
  assert (FAIL : errs r <> [] -> (forall t, ~ oper E P op x y t) ->
    (errs r = [] -> exists t, oper E P op x y t /\ alike E t (rtyp r)) /\ ((exists t, oper E P op x y t) -> (forall a b, folderr op a b = []) -> errs r = [])).
  { intros A B. split; [contradiction|]. intros [t O]. destruct (B t O). }
  destruct M as [(NX & NY & t & SM & F)|[(SX & SY & F)|[(-> & Q & F)|(B & F)]]].
  - pose proof (smallest_num _ _ _ SM NX NY) as NT. unfold form_of in R. rewrite F in R.
    assert (NBO : forall op1, op1 = OAnd \/ op1 = OOr -> forall u, ~ oper E P op1 x y u).
    { intros op1 O u U. apply need_bool in U as [U _]; auto. destruct NX as [X|[X|X]]; unfold int_ in X; congruence. }
    assert (CMPX : comparable E x y) by (eapply cmp_num; eauto).
    destruct NT as [I|RT].
    + destruct (smallest_int _ _ _ SM I) as [IX IY]. unfold int_ in I. rewrite I in R.
      destruct op; cbn in R; rewrite <- R in *; cbn [errs rtyp] in *.
      * apply (PASS t); auto; [apply op_arith; auto|]. rewrite FT; rewrite F; auto.
      * apply (PASS (realtyp P)); auto. apply op_slash_int; auto.
      * apply (PASS t); auto; [eapply op_div; eauto|]. rewrite FT; rewrite F; auto.
      * apply (PASS t); auto; [eapply op_div; eauto|]. rewrite FT; rewrite F; auto.
      * apply FAIL; [discriminate|auto].
      * apply (PASS t); auto; [apply op_arith; auto|]. rewrite FT; rewrite F; auto.
      * apply (PASS t); auto; [apply op_arith; auto|]. rewrite FT; rewrite F; auto.
      * apply FAIL; [discriminate|auto].
      * apply (PASS (booltyp P)); auto. apply op_eq; [auto|apply eq_cmp; auto].
      * apply (PASS (booltyp P)); auto. apply op_eq; [auto|apply eq_cmp; auto].
      * apply (PASS (booltyp P)); auto. apply op_cmp; tauto.
      * apply (PASS (booltyp P)); auto. apply op_cmp; tauto.
      * apply (PASS (booltyp P)); auto. apply op_cmp; tauto.
      * apply (PASS (booltyp P)); auto. apply op_cmp; tauto.
    + assert (ND : forall op1, op1 = ODiv \/ op1 = OMod -> forall u, ~ oper E P op1 x y u).
      { intros op1 O u U. apply need_div in U as [UX UY]; auto. pose proof (smallest_is_int _ _ _ SM UX UY) as IT. destruct (form_int_real _ IT RT). }
      assert (RR : in_real (sform (T t)) = true /\ is_form (sform (T t)) FInt = false /\ is_form (sform (T t)) FBool = false /\ is_form (sform (T t)) FUndef = false /\
        is_form (sform (T t)) FSet = false /\ is_form (sform (T t)) FNil = false /\ is_form (sform (T t)) FPointer = false).
      { destruct RT as [-> | ->]; repeat split; reflexivity. }
      destruct RR as (R1 & R2 & R3 & R4 & R5 & R6 & R7). rewrite ?R1, ?R2, ?R3, ?R4, ?R5, ?R6, ?R7 in R.
      destruct op; cbn [orb app] in R; rewrite <- R in *; cbn [errs rtyp] in *.
      * apply (PASS t); auto. apply op_arith; auto.
      * apply (PASS t); auto. apply op_slash_real; auto.
      * apply FAIL; [discriminate|auto].
      * apply FAIL; [discriminate|auto].
      * apply FAIL; [discriminate|auto].
      * apply (PASS t); auto. apply op_arith; auto.
      * apply (PASS t); auto. apply op_arith; auto.
      * apply FAIL; [discriminate|auto].
      * apply (PASS (booltyp P)); auto. apply op_eq; [auto|apply eq_cmp; auto].
      * apply (PASS (booltyp P)); auto. apply op_eq; [auto|apply eq_cmp; auto].
      * apply (PASS (booltyp P)); auto. apply op_cmp; tauto.
      * apply (PASS (booltyp P)); auto. apply op_cmp; tauto.
      * apply (PASS (booltyp P)); auto. apply op_cmp; tauto.
      * apply (PASS (booltyp P)); auto. apply op_cmp; tauto.
  - destruct (set_smallest _ _ SX SY) as [t SM]. pose proof (smallest_set _ _ _ SM SX SY) as ST. unfold set_ in F, ST. unfold form_of in R. rewrite F in R.
    destruct op; cbn in R; rewrite <- R in *; cbn [errs rtyp] in *.
    + apply (PASS t); auto; [apply op_set; auto|]. rewrite FT; rewrite F; auto.
    + apply (PASS t); auto; [apply op_set; auto|]. rewrite FT; rewrite F; auto.
    + apply FAIL; [discriminate|]. intros u U. apply need_div in U as [U _]; auto. unfold set_, int_ in *. congruence.
    + apply FAIL; [discriminate|]. intros u U. apply need_div in U as [U _]; auto. unfold set_, int_ in *. congruence.
    + apply FAIL; [discriminate|]. intros u U. apply need_bool in U as [U _]; auto. unfold set_, int_ in *. congruence.
    + apply (PASS t); auto; [apply op_set; auto|]. rewrite FT; rewrite F; auto.
    + apply (PASS t); auto; [apply op_set; auto|]. rewrite FT; rewrite F; auto.
    + apply FAIL; [discriminate|]. intros u U. apply need_bool in U as [U _]; auto. unfold set_, int_ in *. congruence.
    + apply (PASS (booltyp P)); auto. apply op_eq; [auto|apply eq_set; auto].
    + apply (PASS (booltyp P)); auto. apply op_eq; [auto|apply eq_set; auto].
    + apply FAIL; [discriminate|]. intros u U. apply need_cmp in U; auto. apply not_comparable in U. unfold set_ in SX. rewrite SX in U. auto.
    + apply FAIL; [discriminate|]. intros u U. apply need_cmp in U; auto. apply not_comparable in U. unfold set_ in SX. rewrite SX in U. auto.
    + apply FAIL; [discriminate|]. intros u U. apply need_cmp in U; auto. apply not_comparable in U. unfold set_ in SX. rewrite SX in U. auto.
    + apply FAIL; [discriminate|]. intros u U. apply need_cmp in U; auto 6. apply not_comparable in U. unfold set_ in SX. rewrite SX in U. auto.
  - assert (NN : ~ numeric E (oty x)) by (unfold numeric, int_, real_; intuition congruence).
    assert (NS : ~ set_ E (oty x)) by (unfold set_; intuition congruence).
    assert (N1 : forall op1, op1 = OPlus \/ op1 = OMinus \/ op1 = OTimes \/ op1 = OSlash -> forall u, ~ oper E P op1 x y u).
    { intros op1 O u U. destruct (need_num _ _ _ _ O U) as [[A _]|[A _]]; auto. }
    assert (N2 : forall op1, op1 = ODiv \/ op1 = OMod -> forall u, ~ oper E P op1 x y u).
    { intros op1 O u U. destruct (need_div _ _ _ _ O U) as [A _]. apply NN. left. auto. }
    assert (N3 : sform (T (oty x)) <> FBool -> forall op1, op1 = OAnd \/ op1 = OOr -> forall u, ~ oper E P op1 x y u).
    { intros A op1 O u U. destruct (need_bool _ _ _ _ O U) as [B _]. auto. }
    assert (N4 : sform (T (oty x)) <> FChar -> forall op1, op1 = OLss \/ op1 = OLeq \/ op1 = OGtr \/ op1 = OGeq -> forall u, ~ oper E P op1 x y u).
    { intros A op1 O u U. apply need_cmp in U; auto. apply not_comparable in U. destruct F as [F|[F|F]]; rewrite F in U; auto. }
    unfold form_of in R. destruct F as [F|[F|F]]; rewrite F in R, Q; symmetry in Q; destruct op; cbn in R; rewrite <- R in *; cbn [errs rtyp] in *;
    try (apply FAIL; [discriminate|]; first [apply N1; clear; intuition congruence|apply N2; clear; intuition congruence|apply N3; [congruence|clear; intuition congruence]|apply N4; [congruence|clear; intuition congruence]]).
    + apply (PASS (booltyp P)); [apply op_bool; auto|congruence|left; reflexivity].
    + apply (PASS (booltyp P)); [apply op_bool; auto|congruence|left; reflexivity].
    + apply (PASS (booltyp P)); auto. apply op_eq; [auto|apply eq_bool; auto].
    + apply (PASS (booltyp P)); auto. apply op_eq; [auto|apply eq_bool; auto].
    + apply (PASS (booltyp P)); auto. apply op_eq; [auto|apply eq_cmp, cmp_char; auto].
    + apply (PASS (booltyp P)); auto. apply op_eq; [auto|apply eq_cmp, cmp_char; auto].
    + apply (PASS (booltyp P)); auto. apply op_cmp; [clear; tauto|apply cmp_char; auto].
    + apply (PASS (booltyp P)); auto. apply op_cmp; [clear; tauto|apply cmp_char; auto].
    + apply (PASS (booltyp P)); auto. apply op_cmp; [clear; tauto|apply cmp_char; auto].
    + apply (PASS (booltyp P)); auto. apply op_cmp; [clear; tauto|apply cmp_char; auto].
    + apply (PASS (booltyp P)); auto. apply op_eq; [auto|apply eq_nil with (f := FNil); unfold nil_or; auto].
    + apply (PASS (booltyp P)); auto. apply op_eq; [auto|apply eq_nil with (f := FNil); unfold nil_or; auto].
  - assert (FX : sform (T (oty x)) = FString \/ sform (T (oty x)) = FChar \/ sform (T (oty x)) = FComp).
    { destruct B as [[[X|(X & _)] _]|[[[X|(X & _)] _]|[[X _] _]]]; auto; apply array_comp in X; auto. }
    assert (NN : ~ numeric E (oty x)) by (unfold numeric, int_, real_; intuition congruence).
    assert (NS : ~ set_ E (oty x)) by (unfold set_; intuition congruence).
    assert (N1 : forall op1, op1 = OPlus \/ op1 = OMinus \/ op1 = OTimes \/ op1 = OSlash -> forall u, ~ oper E P op1 x y u).
    { intros op1 O u U. destruct (need_num _ _ _ _ O U) as [[A _]|[A _]]; auto. }
    assert (N2 : forall op1, op1 = ODiv \/ op1 = OMod -> forall u, ~ oper E P op1 x y u).
    { intros op1 O u U. destruct (need_div _ _ _ _ O U) as [A _]. apply NN. left. auto. }
    assert (N3 : forall op1, op1 = OAnd \/ op1 = OOr -> forall u, ~ oper E P op1 x y u).
    { intros op1 O u U. destruct (need_bool _ _ _ _ O U) as [A _]. intuition congruence. }
    unfold form_of in R. rewrite F in R. destruct op; cbn in R; rewrite <- R in *; cbn [errs rtyp] in *;
    try (apply FAIL; [discriminate|]; first [apply N1; clear; intuition congruence|apply N2; clear; intuition congruence|apply N3; clear; intuition congruence]).
    all: apply (PASS (booltyp P)); auto.
    1,2: apply op_eq; [auto|apply eq_cmp, cmp_str; auto].
    all: apply op_cmp; [tauto|apply cmp_str; auto].
Qed.
(** A constant expression is accepted only if the report allows the operator for its operands, and every allowed one is accepted unless its
    value is out of range or its divisor is 0. *)
Theorem C82_constant : forall fuel op x y r, operand E x -> operand E y -> ocl x = Nconst -> ocl y = Nconst ->
  (forall op a b, sform (T (oty a)) = FInt \/ sform (T (oty a)) = FSet -> sform (T (foldtyp op a b)) = sform (T (oty a))) ->
  Op E P lev foldtyp folderr fuel op x y = Ok r ->
  (errs r = [] -> exists t, oper E P op x y t /\ alike E t (rtyp r)) /\
  ((exists t, oper E P op x y t) -> (forall a b, folderr op a b = []) -> errs r = []).
Proof.
  intros fuel op x y r OX OY CX CY FT H. unfold Op, not_value, is_const in H. rewrite CX, CY in H.
  change ((Nconst =? Ntype) || (Nconst =? Nproc) || ((Nconst =? Ntype) || (Nconst =? Nproc))) with false in H.
  rewrite Z.eqb_refl in H. cbn [andb] in H. eapply ConstOp_spec; eauto.
Qed.

(** ** Monadic operators, membership and set constructors *)
(** The monadic operators and the standard functions ABS, CAP and ODD; -x and ABS(x) of the least constant are out of range. *)
Theorem C82_monadic : forall op x lowest e t, MOp E P op x lowest = (e, t) ->
  (e = [] <-> value_node x /\ (exists u, moper E P op (oty x) u) /\
              ~ ((op = MMinus \/ op = MAbs) /\ ocl x = Nconst /\ int_ E (oty x) /\ lowest = true)) /\
  (e = [] -> moper E P op (oty x) t).
Proof.
  intros op x lowest e t H. unfold MOp in H. destruct (not_value x) eqn:V.
  - inversion H; subst. assert (~ value_node x) by (rewrite <- not_value_iff; congruence). split; [split|]; try discriminate. tauto.
  - apply not_value_iff in V.
    assert (INV : forall u, moper E P op (oty x) u -> match op with
        | MNot => sform (T (oty x)) = FBool | MPlus | MAbs => numeric E (oty x) | MMinus => numeric E (oty x) \/ set_ E (oty x)
        | MCap => sform (T (oty x)) = FChar | MOdd => int_ E (oty x) end) by (intros u U; destruct U; auto).
    assert (NUM : is_form (form_of E x) FInt || in_real (form_of E x) = true <-> numeric E (oty x)).
    { unfold in_real, form_of, numeric, int_, real_. rewrite !orb_true_iff, !is_form_iff. tauto. }
    assert (LOW : is_const x && is_form (form_of E x) FInt && lowest = true <-> ocl x = Nconst /\ int_ E (oty x) /\ lowest = true).
    { rewrite !andb_true_iff, const_iff, is_form_iff. unfold int_, form_of. tauto. }
    assert (YES : e = [] -> moper E P op (oty x) t -> ~ ((op = MMinus \/ op = MAbs) /\ ocl x = Nconst /\ int_ E (oty x) /\ lowest = true) ->
      (e = [] <-> value_node x /\ (exists u, moper E P op (oty x) u) /\ ~ ((op = MMinus \/ op = MAbs) /\ ocl x = Nconst /\ int_ E (oty x) /\ lowest = true)) /\
      (e = [] -> moper E P op (oty x) t)) by (intros A B C; split; [split; eauto|auto]).
    assert (NO : e <> [] -> (forall u, ~ moper E P op (oty x) u) \/ ((op = MMinus \/ op = MAbs) /\ ocl x = Nconst /\ int_ E (oty x) /\ lowest = true) ->
      (e = [] <-> value_node x /\ (exists u, moper E P op (oty x) u) /\ ~ ((op = MMinus \/ op = MAbs) /\ ocl x = Nconst /\ int_ E (oty x) /\ lowest = true)) /\
      (e = [] -> moper E P op (oty x) t)).
    { intros A B. split; [split|]; try contradiction. intros (_ & (u & U) & N). destruct B as [B|B]; [destruct (B u U)|contradiction]. }
    destruct op; injection H as He Ht.
    + destruct (is_form (form_of E x) FBool) eqn:B.
      * apply YES; [symmetry; auto|rewrite <- Ht; apply mo_not; apply is_form_iff; auto|intuition discriminate].
      * apply NO; [rewrite <- He; discriminate|]. left. intros u U. apply INV in U. apply is_form_iff in U. unfold form_of in B. congruence.
    + destruct (is_form (form_of E x) FInt || in_real (form_of E x)) eqn:B.
      * apply YES; [symmetry; auto|rewrite <- Ht; apply mo_plus, NUM; auto|intuition discriminate].
      * apply NO; [rewrite <- He; discriminate|]. left. intros u U. apply INV, NUM in U. discriminate.
    + destruct (is_form (form_of E x) FInt || in_real (form_of E x) || is_form (form_of E x) FSet) eqn:B.
      * assert (M : moper E P MMinus (oty x) (oty x)). { apply mo_minus. apply orb_true_iff in B as [B|B]; [left; apply NUM; auto|right; apply is_form_iff; auto]. }
        destruct (is_const x && is_form (form_of E x) FInt && lowest) eqn:L.
        -- apply NO; [rewrite <- He; discriminate|]. right. split; auto. apply LOW; auto.
        -- apply YES; [symmetry; auto|rewrite <- Ht; auto|]. intros (_ & Q). apply LOW in Q. discriminate.
      * apply NO; [rewrite <- He; discriminate|]. left. intros u U. apply orb_false_iff in B as [B1 B2]. apply INV in U. destruct U as [U|U].
        -- apply NUM in U. congruence.
        -- unfold set_ in U. apply is_form_iff in U. unfold form_of in B2. congruence.
    + destruct (is_form (form_of E x) FInt || in_real (form_of E x)) eqn:B.
      * assert (M : moper E P MAbs (oty x) (oty x)) by (apply mo_abs, NUM; auto).
        destruct (is_const x && is_form (form_of E x) FInt && lowest) eqn:L.
        -- apply NO; [rewrite <- He; discriminate|]. right. split; auto. apply LOW; auto.
        -- apply YES; [symmetry; auto|rewrite <- Ht; auto|]. intros (_ & Q). apply LOW in Q. discriminate.
      * apply NO; [rewrite <- He; discriminate|]. left. intros u U. apply INV, NUM in U. discriminate.
    + destruct (is_form (form_of E x) FChar) eqn:B.
      * apply YES; [symmetry; auto|rewrite <- Ht; apply mo_cap; apply is_form_iff; auto|intuition discriminate].
      * apply NO; [rewrite <- He; discriminate|]. left. intros u U. apply INV in U. apply is_form_iff in U. unfold form_of in B. congruence.
    + destruct (is_form (form_of E x) FInt) eqn:B.
      * apply YES; [symmetry; auto|rewrite <- Ht; apply mo_odd; apply is_form_iff; auto|intuition discriminate].
      * apply NO; [rewrite <- He; discriminate|]. left. intros u U. apply INV in U. unfold int_ in U. apply is_form_iff in U. unfold form_of in B. congruence.
Qed.
(** [x IN y]: an integer and a set; a constant element is one the set type can hold. *)
Theorem C82_in : forall x y e t, In_ E P x y = (e, t) ->
  t = booltyp P /\
  (e = [] <-> value_node x /\ value_node y /\ int_ E (oty x) /\ set_ E (oty y) /\ (ocl x = Nconst -> 0 <= oiv x < 8 * ssize (T (oty y)))).
Proof.
  intros x y e t H. unfold In_ in H. inversion H as [[He Ht]]. split; auto. rewrite <- !not_value_iff. unfold int_, set_. rewrite <- !is_form_iff, <- const_iff.
  change (sform (T (oty x))) with (form_of E x). change (sform (T (oty y))) with (form_of E y).
  destruct (not_value x), (not_value y); cbn [orb]; try (split; [discriminate|intuition congruence]).
  destruct (is_form (form_of E x) FInt), (is_form (form_of E y) FSet); cbn [andb]; try (split; [discriminate|intuition congruence]).
  destruct (is_const x); cbn [andb].
  - destruct ((oiv x <? 0) || (oiv x >=? ssize (T (oty y)) * 8)) eqn:Q.
    + split; [discriminate|]. intros (_ & _ & _ & _ & B). specialize (B eq_refl). apply orb_true_iff in Q as [Q|Q]; [apply Z.ltb_lt in Q|apply Z.geb_le in Q]; lia.
    + apply orb_false_iff in Q as [Q1 Q2]. apply Z.ltb_ge in Q1. rewrite Z.geb_leb in Q2. apply Z.leb_gt in Q2. split; [|auto]. intros _. repeat split; auto; lia.
  - split; auto. intros _. repeat split; auto; discriminate.
Qed.
(** An element of a set constructor is an integer, and a constant element is one a set can hold; a constant range is not empty. *)
Theorem C82_element : forall x, SetElem E x = [] <-> value_node x /\ int_ E (oty x) /\ (ocl x = Nconst -> 0 <= oiv x < 64).
Proof.
  intros x. unfold SetElem. rewrite <- !not_value_iff. unfold int_. rewrite <- !is_form_iff, <- const_iff. change (sform (T (oty x))) with (form_of E x).
  destruct (not_value x); [split; [discriminate|intuition congruence]|].
  destruct (is_form (form_of E x) FInt); cbn [negb]; [|split; [discriminate|intuition congruence]].
  destruct (is_const x).
  - destruct ((0 <=? oiv x) && (oiv x <=? 63)) eqn:Q.
    + apply andb_true_iff in Q as [Q1 Q2]. apply Z.leb_le in Q1, Q2. split; auto. intros _. repeat split; auto; lia.
    + split; [discriminate|]. intros (_ & _ & B). specialize (B eq_refl). apply andb_false_iff in Q as [Q|Q]; apply Z.leb_gt in Q; lia.
  - split; auto. intros _. repeat split; auto; discriminate.
Qed.
Theorem C82_range : forall x y, SetRange E x y = [] <->
  value_node x /\ value_node y /\ int_ E (oty x) /\ int_ E (oty y) /\ (ocl x = Nconst -> 0 <= oiv x < 64) /\ (ocl y = Nconst -> 0 <= oiv y < 64) /\
  (ocl x = Nconst -> ocl y = Nconst -> oiv x <= oiv y).
Proof.
  assert (ST : forall x, (if is_const x && ((0 >? oiv x) || (oiv x >? 63)) then [202] else []) = [] <-> (is_const x = true -> 0 <= oiv x < 64)).
  { intros x. destruct (is_const x); cbn [andb]; [|split; auto; discriminate]. rewrite !Z.gtb_ltb.
    destruct ((oiv x <? 0) || (63 <? oiv x)) eqn:Q.
    - split; [discriminate|]. intros B. specialize (B eq_refl). apply orb_true_iff in Q as [Q|Q]; apply Z.ltb_lt in Q; lia.
    - apply orb_false_iff in Q as [Q1 Q2]. apply Z.ltb_ge in Q1, Q2. split; auto. intros _ _. lia. }
  intros x y. unfold SetRange. rewrite <- !not_value_iff. unfold int_. rewrite <- !is_form_iff, <- !const_iff.
  change (sform (T (oty x))) with (form_of E x). change (sform (T (oty y))) with (form_of E y).
  destruct (not_value x), (not_value y); cbn [orb]; try (split; [discriminate|intuition congruence]).
  destruct (is_form (form_of E x) FInt), (is_form (form_of E y) FInt); cbn [andb]; try (split; [discriminate|intuition congruence]).
  pose proof (ST x) as SX. pose proof (ST y) as SY.
  assert (OR : (if is_const x && is_const y && negb (oiv x <=? oiv y) then [201] else []) = [] <-> (is_const x = true -> is_const y = true -> oiv x <= oiv y)).
  { destruct (is_const x), (is_const y); cbn [andb]; try (split; auto; discriminate).
    destruct (oiv x <=? oiv y) eqn:Q; cbn [negb]; [apply Z.leb_le in Q; split; auto|]. apply Z.leb_gt in Q. split; [discriminate|]. intros B. specialize (B eq_refl eq_refl). lia. }
  split.
  - intros Q. apply app_eq_nil in Q as [Q1 Q]. apply app_eq_nil in Q as [Q2 Q3].
    repeat split; auto; try (apply SX; auto; fail); try (apply SY; auto; fail); apply OR; auto.
  - intros (_ & _ & _ & _ & A & B & C). apply SX in A. apply SY in B. apply OR in C. rewrite A, B, C. reflexivity.
Qed.

(** ** Termination *)
Lemma climb_total : forall rank, ranked E rank -> forall n p q, (rank p < n)%nat -> scomp (T p) = Record_ -> exists e, climb E n (Some p) q = Ok e.
Proof.
  intros rank RK. induction n as [|n IH]; intros p q L C; [lia|]. cbn [climb].
  destruct (Nat.eqb p q || Nat.eqb p (undftyp E)); [eauto|]. destruct (sbase (T p)) as [b|] eqn:B.
  - apply IH; [|eapply (t_rbase E TB); eauto]. pose proof (proj1 RK p b C B). lia.
  - exists [100]. destruct n; reflexivity.
Qed.
Lemma CheckPtr_total : forall rank, ranked E rank -> forall x y, form_of E x = FPointer -> exists fuel e, CheckPtr E lev fuel x y = Ok e.
Proof.
  intros rank RK x y F. unfold CheckPtr. destruct (is_form (form_of E y) FPointer) eqn:G; [|exists O; eauto].
  apply is_form_iff in G. destruct (t_pbase E TB _ F) as [p BP]. destruct (t_pbase E TB _ G) as [q BQ]. rewrite BP, BQ. cbn [deref bind].
  destruct (is_comp (scomp (T p)) Record_ && is_comp (scomp (T q)) Record_) eqn:C; [|exists O; eauto].
  apply andb_true_iff in C as [C1 C2]. apply is_comp_iff in C1, C2.
  destruct (lev p <? lev q).
  - destruct (climb_total rank RK (S (rank q)) q p) as [e H]; auto. eauto.
  - destruct (climb_total rank RK (S (rank p)) p q) as [e H]; auto. eauto.
Qed.
Lemma chararr_total : forall x, exists b, chararr E x = Ok b.
Proof.
  intros x. unfold chararr. destruct (is_form (form_of E x) FString); [eauto|].
  destruct (is_comp (scomp (T (oty x))) Array || is_comp (scomp (T (oty x))) DynArr) eqn:C; [|eauto].
  destruct (t_abase E TB (oty x)) as [b B]; [apply orb_true_iff in C as [C|C]; apply is_comp_iff in C; auto|]. rewrite B. cbn [deref bind]. eauto.
Qed.
Lemma strings_total : forall x y, exists p, strings E x y = Ok p.
Proof.
  intros x y. unfold strings. destruct (chararr_total x) as [xa ->]. destruct (chararr_total y) as [ya ->]. cbn [bind].
  destruct (xa && is_form (form_of E y) FChar && is_const y).
  - destruct (true && is_form (form_of E x) FChar && is_const x); eauto.
  - destruct (ya && is_form (form_of E x) FChar && is_const x); eauto.
Qed.
Lemma body_total : forall op z y e, exists r, body op z y e = Ok r.
Proof.
  intros op z y e. unfold body. destruct op; cbv zeta;
  repeat match goal with |- exists r, (if ?b then _ else _) = _ => destruct b end; eauto;
  destruct (strings_total z y) as [[[ok z1] y1] ->]; cbn [bind]; eauto.
Qed.
Theorem C82_terminates : forall rank, ranked E rank -> forall op x y, exists fuel r, Op E P lev foldtyp folderr fuel op x y = Ok r.
Proof.
  intros rank RK op x y.
  assert (CP : exists fuel, form_of E x = FPointer -> exists e, CheckPtr E lev fuel x y = Ok e).
  { destruct (is_form (form_of E x) FPointer) eqn:F.
    - apply is_form_iff in F. destruct (CheckPtr_total rank RK x y F) as (fuel & e & H). exists fuel. intros _. eauto.
    - exists O. intros Q. apply is_form_iff in Q. congruence. }
  destruct CP as [fuel CP]. exists fuel. unfold Op.
  destruct (not_value x || not_value y); [eauto|]. destruct (is_const x && is_const y).
  - assert (M : exists p, const_match E P lev fuel x y = Ok p).
    { unfold const_match. destruct (is_form (form_of E x) (form_of E y)); [eauto|].
      destruct (form_of E x); eauto. destruct CP as [e ->]; auto. cbn [bind]. eauto. }
    unfold ConstOp. destruct M as [[[x' y'] e] ->]. cbn [bind]. eauto.
  - assert (M : exists p, match_types E lev fuel x y = Ok p).
    { unfold match_types. destruct (Nat.eqb (oty x) (oty y)); [eauto|].
      destruct (form_of E x); eauto. destruct CP as [e ->]; auto. cbn [bind]. eauto. }
    destruct M as [[[x' y'] e] ->]. cbn [bind]. apply (body_total op x' y' e).
Qed.
End WithTable.

(** ** The hypotheses are met *)
(** The demonstration types with LONGREAL, SET, a longer set and NIL. *)
Definition odemo : env :=
  {| undftyp := 0; sysptrtyp := 1; chartyp := 2; bytetyp := 3; stringtyp := 4;
     str := fun t => match t with
       | 19 => basic FLReal 8 | 20 => basic FSet 4 | 21 => basic FSet 8 | 22 => basic FNil 8
       | _ => str (demo false) t end%nat |}.
Definition opre : predecl := {| booltyp := 18; realtyp := 10; lrltyp := 19; settyp := 20 |}.
Definition olev (t : tid) : Z := match t with 12%nat => 1 | _ => 0 end.
Definition oft (op : binop) (x y : opnd) : tid := oty x.
Definition ofe (op : binop) (x y : opnd) : list Z := [].
Lemma odemo_table : table odemo.
Proof.
  assert (R : forall t, (t = 19 \/ t = 20 \/ t = 21 \/ t = 22)%nat \/ str odemo t = str (demo false) t).
  { intros t. do 23 (destruct t as [|t]; [auto 8|]). right. reflexivity. }
  pose proof (demo_table false) as TB. destruct TB. constructor; try reflexivity.
  all: intros t; specialize (R t); destruct R as [[-> |[-> |[-> | ->]]]|R]; try (cbn; intuition (try discriminate; try lia; try congruence); fail); rewrite ?R; auto.
  all: cbn; eauto; try (intros; eauto; fail).
  intros b C B. specialize (t_rbase t b C B). do 23 (destruct b as [|b]; [try exact t_rbase; try discriminate t_rbase|]). discriminate t_rbase.
Qed.
Lemma odemo_pre : predeclared odemo opre.
Proof.
  constructor; try (intros t; split; [do 23 (destruct t as [|t]; [cbn; intros Q; try discriminate Q; reflexivity|]); cbn; discriminate|intros ->; reflexivity]).
  intros t u A B. assert (X : forall t, sform (str odemo t) = FNil -> t = 22%nat).
  { clear. intros t. do 23 (destruct t as [|t]; [cbn; intros Q; try discriminate Q; reflexivity|]); cbn; discriminate. }
  rewrite (X t A), (X u B). reflexivity.
Qed.
Lemma odemo_lev : levels odemo olev.
Proof.
  intros t b. do 23 (destruct t as [|t]; [cbn; intros A B; try discriminate A; inversion B; subst; reflexivity|]). cbn. discriminate.
Qed.
Definition ov (t : tid) : opnd := mko 1 t 0 false 0.
Definition oc (t : tid) (v : Z) : opnd := mko Nconst t v false 0.
Definition run (op : binop) (x y : opnd) : list Z * tid * tid * tid :=
  match Op odemo opre olev oft ofe 5 op x y with Ok r => (errs r, rtyp r, left r, right r) | _ => ([-1], 0%nat, 0%nat, 0%nat) end.
(** INT16 + INT32; INT32 / INT16; INT16 * REAL; DIV by a constant 0; short and long set; pointer and extension; unrelated; array and string
    constant; characters; order of sets; procedure and NIL. *)
Example C82_met : table odemo /\ predeclared odemo opre /\ levels odemo olev /\ operand odemo (ov 8) /\ operand odemo (oc 9 0) /\
  run OPlus (ov 8) (ov 9) = ([], 9%nat, 9%nat, 9%nat) /\ run OSlash (ov 9) (ov 8) = ([], 10%nat, 10%nat, 10%nat) /\ run OTimes (ov 8) (ov 10) = ([], 10%nat, 10%nat, 10%nat) /\
  run ODiv (ov 8) (oc 9 0) = ([205], 9%nat, 9%nat, 9%nat) /\ run OMinus (ov 20) (ov 21) = ([], 21%nat, 21%nat, 21%nat) /\
  run OEql (ov 13) (ov 14) = ([], 18%nat, 13%nat, 14%nat) /\ run OEql (ov 13) (ov 8) = ([100], 18%nat, 13%nat, 8%nat) /\
  run OLss (ov 15) (mko Nconst 4 0 false 3) = ([], 18%nat, 15%nat, 4%nat) /\ run OLeq (ov 2) (oc 2 65) = ([], 18%nat, 2%nat, 2%nat) /\
  fst (fst (fst (run OLss (ov 20) (ov 20)))) = [108] /\ run ONeq (ov 6) (oc 22 0) = ([], 18%nat, 6%nat, 22%nat) /\
  run OPlus (oc 8 1) (oc 10 1) = ([], 10%nat, 10%nat, 10%nat) /\ fst (fst (fst (run OAnd (oc 8 1) (oc 8 1)))) = [94].
Proof.
  split; [apply odemo_table|]. split; [apply odemo_pre|]. split; [apply odemo_lev|].
  split; [split; [discriminate|split; discriminate]|]. split; [split; [discriminate|split; [intros _; exact I|discriminate]]|].
  repeat split.
Qed.

Print Assumptions C82_exact.
Print Assumptions C82_converted.
Print Assumptions C82_constant.
Print Assumptions C82_monadic.
Print Assumptions C82_in.
Print Assumptions C82_element.
Print Assumptions C82_range.
Print Assumptions C82_terminates.
